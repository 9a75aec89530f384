(** C02, C03 (models), C22, C37, C43: property theorems about reduction stacks. *)
From Coq Require Import List NArith ZArith Bool Lia.
From Verif Require Import Base FloatOps FloatB32 Model_Hash Model_Features Model_Weights Model_Loss Model_Interactions
  Model_Types Model_Explore Model_Coin Model_Stack Model_Factory Spec_Features Spec_Stack Proof_StackProps.
Import ListNotations.

(** C02.  For every configuration, every state the created stack can get into, and all
    plain features: whichever call returns, the features look as before. *)
Theorem C02_features_restored :
  forall (O : FOps) (H : hasher) (dbg : bool) (gc : gconfig) (c : rcfg O) R r f,
  ws_new H dbg gc c = Ok R -> reach dbg (projT2 R) r -> plain f ->
  (forall p f', ws_predict dbg r f = Ok (p, f') -> fts_same f f') /\
  (forall lb r' f', ws_learn dbg r f lb = Ok (r', f') -> fts_same f f') /\
  (forall lb p r' f', ws_ptl dbg r f lb = Ok (p, r', f') -> fts_same f f').
Proof. exact @features_restored. Qed.
Print Assumptions C02_features_restored.

(** A greedy/debug/contextual-bandit/coin stack on two actions that share a namespace
    with the shared features: all hypotheses hold and all three calls return. *)
Example C02_example :
  plain ex_fts /\
  exists R, ws_new ex_hash false ex_gc ex_cfg = Ok R /\ reach false (projT2 R) (projT2 R) /\
    ok_of (ws_predict false (projT2 R) ex_fts) = true /\
    ok_of (ws_learn false (projT2 R) ex_fts ex_lb) = true /\
    ok_of (ws_ptl false (projT2 R) ex_fts ex_lb) = true.
Proof.
  split; [exact ex_plain|]. destruct ex_calls as (R & E & H). exists R.
  split; [exact E|]. split; [apply reach_refl|exact H].
Qed.

(** C02 for any built features is false: an active namespace without features in an
    action is lost (release build); a debug build panics on the same input. *)
Theorem C02_unconditional_refuted :
  exists R, ws_new ex_hash false ex_gc ex_cfg = Ok R /\ built_fts ex_fts_empty /\
  exists p f', ws_predict false (projT2 R) ex_fts_empty = Ok (p, f') /\ ~ fts_same ex_fts_empty f'.
Proof. exact restore_refuted_release. Qed.
Print Assumptions C02_unconditional_refuted.

Theorem C02_debug_panics :
  exists R, ws_new ex_hash true ex_gc ex_cfg = Ok R /\ ws_predict true (projT2 R) ex_fts_empty = Pn PAssert.
Proof. exact restore_refuted_debug. Qed.
Print Assumptions C02_debug_panics.

(** ... and so is a namespace that has the key the element-wise reduction uses. *)
Theorem C02_composite_refuted :
  exists R, ws_new ex_hash false ex_gc ex_raw_cfg = Ok R /\ built_fts (FtsSimple (ex_raw_store 0%nat)) /\
  exists p f', ws_predict false (projT2 R) (FtsSimple (ex_raw_store 0%nat)) = Ok (p, f') /\
    ~ fts_same (FtsSimple (ex_raw_store 0%nat)) f'.
Proof. exact restore_refuted_composite. Qed.
Print Assumptions C02_composite_refuted.

(** C03, models.  Any program of feature operations and predict, learn and
    predict_then_learn calls, any stack: after any first part, clearing object [i]
    (what the pool does) or replacing it with a new one makes no difference to the
    rest: same outcome, same model, same predictions, same-looking features. *)
Theorem C03_same_models :
  forall (O : FOps) (dbg : bool) (n : nat) (r0 : red O n) (h : list (pop O)) s i (h' : list (pop O)),
  pops_run dbg h (mkPs fstore0 r0 [] []) = Ok s ->
  orel ps_same (pops_run dbg (PF (FClear i) :: h') s) (pops_run dbg (PF (FNew i) :: h') s).
Proof. exact @recycled_same_models. Qed.
Print Assumptions C03_same_models.

Example C03_models_example :
  exists R s, ex_red = Ok R /\ pops_run false ex_prog (mkPs fstore0 (projT2 R) [] []) = Ok s.
Proof. destruct ex_prog_ok as (R & s & A & B & _). exists R, s. auto. Qed.

(** C22.  predict_then_learn returns iff predict and learn do, with the prediction of
    predict and the model of learn. *)
Theorem C22_predict_then_learn :
  forall (O : FOps) (H : hasher) (dbg : bool) (gc : gconfig) (c : rcfg O) R r f lb,
  ws_new H dbg gc c = Ok R -> reach dbg (projT2 R) r -> plain f ->
  (forall p r' f', ws_ptl dbg r f lb = Ok (p, r', f') ->
     exists f1 f2, ws_predict dbg r f = Ok (p, f1) /\ ws_learn dbg r f lb = Ok (r', f2) /\
       fts_same f' f1 /\ fts_same f' f2) /\
  (forall p f1 r' f2, ws_predict dbg r f = Ok (p, f1) -> ws_learn dbg r f lb = Ok (r', f2) ->
     exists f', ws_ptl dbg r f lb = Ok (p, r', f') /\ fts_same f' f1 /\ fts_same f' f2).
Proof. exact @ptl_is_predict_learn. Qed.
Print Assumptions C22_predict_then_learn.

(** C37.  Take any program of feature operations and workspace calls on a created
    stack that runs to its end, in which predict is called on tidy features only.  The
    same program without its predict calls also runs to its end, with the same model,
    the same results of predict_then_learn, and same-looking features. *)
Theorem C37_predicts_erasable :
  forall (O : FOps) (H : hasher) (dbg : bool) (gc : gconfig) (c : rcfg O) R (h : list (pop O)) s,
  ws_new H dbg gc c = Ok R ->
  pops_run dbg h (mkPs fstore0 (projT2 R) [] []) = Ok s ->
  predicts_tidy dbg h (mkPs fstore0 (projT2 R) [] []) ->
  exists s', pops_run dbg (erase h) (mkPs fstore0 (projT2 R) [] []) = Ok s' /\
    ps_red s' = ps_red s /\ ps_ptl s' = ps_ptl s /\ (forall i, same_view (ps_store s i) (ps_store s' i)).
Proof. exact @predicts_erasable. Qed.
Print Assumptions C37_predicts_erasable.

Example C37_example : exists R s, ex_red = Ok R /\
  pops_run false ex_prog (mkPs fstore0 (projT2 R) [] []) = Ok s /\
  predicts_tidy false ex_prog (mkPs fstore0 (projT2 R) [] []) /\
  length (ps_ptl s) = 1%nat /\ length (ps_pred s) = 2%nat.
Proof. exact ex_prog_ok. Qed.

(** C37.  Predicting again gives the same prediction. *)
Theorem C37_predict_repeatable :
  forall (O : FOps) (H : hasher) (dbg : bool) (gc : gconfig) (c : rcfg O) R r f p f',
  ws_new H dbg gc c = Ok R -> reach dbg (projT2 R) r -> plain f ->
  ws_predict dbg r f = Ok (p, f') ->
  exists f'', ws_predict dbg r f' = Ok (p, f'') /\ fts_same f f''.
Proof. exact @predict_repeatable. Qed.
Print Assumptions C37_predict_repeatable.

(** C43.  For any stack and features, starting at any offset below 256: same outcome as
    at offset 0 (so no offset computation overflows), and the offset comes back as it was. *)
Theorem C43_offset_balanced :
  forall (O : FOps) (dbg : bool) (n : nat) (r : red O n) f lb d, (d < 256)%N ->
  orel (fun u v => fst u = fst v /\ snd u = d /\ snd v = 0%N) (predict dbg n r f d 0) (predict dbg n r f 0 0) /\
  orel (fun u v => fst u = fst v /\ snd u = d /\ snd v = 0%N) (learn dbg n r f lb d 0) (learn dbg n r f lb 0 0) /\
  orel (fun u v => fst u = fst v /\ snd u = d /\ snd v = 0%N)
    (predict_then_learn dbg n r f lb d 0) (predict_then_learn dbg n r f lb 0 0).
Proof. exact @offset_balanced. Qed.
Print Assumptions C43_offset_balanced.

Example C43_example : exists R x, ex_red = Ok R /\
  predict false (projT1 R) (projT2 R) ex_fts 255 0 = Ok x /\ snd x = 255%N.
Proof.
  destruct ex_calls as (R & E & H & _). exists R.
  pose proof (proj1 (C43_offset_balanced _ false _ (projT2 R) ex_fts ex_lb 255%N eq_refl)) as Q.
  unfold ws_predict in H. destruct (predict false _ (projT2 R) ex_fts 0 0) as [y|e|e]; try discriminate.
  inversion Q as [a b (Q1 & Q2 & Q3) U V| |]; subst. exists a. auto.
Qed.
