(** C97: the laws about features hold in debug builds that do not panic. *)
From Coq Require Import List NArith ZArith Bool Reals.
From Verif Require Import Base FloatOps FloatR FloatB32 Model_Hash Model_Features Model_Interactions
  Model_Types Model_Coin Model_Stack Model_Factory Spec_Features Spec_Stack Spec_Total Spec_Reductions Spec_Values Spec_Save Spec_Empty Spec_Delegate Spec_Shuffle Spec_Units Spec_DebugToo
  Proof_StackProps Proof_EmptyProps Proof_Shuffle Proof_Units Proof_UnitsEx Proof_Merge Proof_MergeEx Proof_DebugToo Proof_DebugTooEx.
Import ListNotations.

(** C97.  A sequence of calls without a panic in the debug build has the same answers in the
    release build. *)
Theorem C97_answers : forall (O : FOps) n cs (r : red O n), calm (answers true r cs) -> answers false r cs = answers true r cs.
Proof. exact calm_answers. Qed.
Print Assumptions C97_answers.

(** What a debug build can make of a workspace, a release build can. *)
Theorem C97_reach : forall (O : FOps) n (r0 r : red O n), reach true r0 r -> reach false r0 r.
Proof. exact @debug_reach. Qed.
Print Assumptions C97_reach.

(** The order of the features (C88). *)
Theorem C97_order : forall H gc (NR : no_repeat H gc) (c : rcfg RF) R0 r f g, ws_new H true gc c = Ok R0 -> reach true (projT2 R0) r ->
  elem_free (projT1 R0) (projT2 R0) -> sound_fts f -> sound_fts g -> reordered_fts f g ->
  (forall p q f' g', ws_predict true r f = Ok (p, f') -> ws_predict true r g = Ok (q, g') -> p = q) /\
  (no_clash_fts H gc f -> forall lb s t f' g', ws_learn true r f lb = Ok (s, f') -> ws_learn true r g lb = Ok (t, g') -> s = t).
Proof. exact debug_order. Qed.
Print Assumptions C97_order.
Theorem C97_order_training : forall H gc (NR : no_repeat H gc) (c : rcfg RF) R0 exs exs' r s, ws_new H true gc c = Ok R0 ->
  elem_free (projT1 R0) (projT2 R0) -> Forall2 (reordered_example H gc) exs exs' ->
  learn_all true (projT2 R0) exs = Ok r -> learn_all true (projT2 R0) exs' = Ok s -> r = s.
Proof. exact debug_order_training. Qed.
Print Assumptions C97_order_training.

(** Empty namespaces (C75). *)
Theorem C97_empty : forall (O : FOps) n (r : red O n) (f g : features O) (lb : label O),
  elem_free n r -> sound_fts f -> sound_fts g -> same_contents f g ->
  (forall p q f' g', ws_predict true r f = Ok (p, f') -> ws_predict true r g = Ok (q, g') -> p = q) /\
  (forall s t f' g', ws_learn true r f lb = Ok (s, f') -> ws_learn true r g lb = Ok (t, g') -> s = t) /\
  (forall p q s t f' g', ws_ptl true r f lb = Ok (p, s, f') -> ws_ptl true r g lb = Ok (q, t, g') -> p = q /\ s = t).
Proof. exact debug_empty. Qed.
Print Assumptions C97_empty.
Theorem C97_empty_training : forall (O : FOps) n (r s t : red O n) (exs exs' : list (features O * label O)),
  elem_free n r -> Forall2 same_example exs exs' -> now true r exs = Ok s -> now true r exs' = Ok t -> s = t.
Proof. exact debug_empty_training. Qed.
Print Assumptions C97_empty_training.

(** The units of the features (C91). *)
Theorem C97_units : forall (u : N -> R) (U : forall i, u i <> 0%R) H gc (c : rcfg RF) R0 cs,
  (gc_bits gc < 32)%N -> gc_inter gc = [] -> (gc_const gc = true -> u (2 ^ gc_bits gc / 2)%N = 1%R) ->
  ws_new H true gc c = Ok R0 -> elem_free (projT1 R0) (projT2 R0) -> Forall paired_call cs ->
  calm (answers true (projT2 R0) cs) -> calm (answers true (projT2 R0) (map (retell_call (fun i => i) (fun i x => (u i * x)%R)) cs)) ->
  answers true (projT2 R0) (map (retell_call (fun i => i) (fun i x => (u i * x)%R)) cs) =
  map (retell_answer (fun i => i) (fun i x => (u i * x)%R)) (answers true (projT2 R0) cs).
Proof. exact debug_units. Qed.
Print Assumptions C97_units.

(** The indices of the features (C92). *)
Theorem C97_indices : forall (O : FOps) H gc ix (c : rcfg O) R0 cs,
  (gc_bits gc < 32)%N -> gc_inter gc = [] -> renaming gc ix ->
  ws_new H true gc c = Ok R0 -> elem_free (projT1 R0) (projT2 R0) -> Forall paired_any cs ->
  calm (answers true (projT2 R0) cs) -> calm (answers true (projT2 R0) (map (retell_call ix (fun _ x => x)) cs)) ->
  answers true (projT2 R0) (map (retell_call ix (fun _ x => x)) cs) =
  map (retell_answer ix (fun _ x => x)) (answers true (projT2 R0) cs).
Proof. exact debug_indices. Qed.
Print Assumptions C97_indices.

(** A regressor in a debug build: learning from four examples returns, and so do predictions
    for them afterwards. *)
Example C97_example : exists R0 : anyred RF, ws_new ex_hash true mx_gc (CCoin (@coin_default RF)) = Ok R0 /\ elem_free (projT1 R0) (projT2 R0) /\
  forall i, (i < 4)%nat -> exists r g, ws_learn true (projT2 R0) (FtsSimple (dt_store i)) dt_label = Ok (r, g) /\ reach true (projT2 R0) r /\
    forall j, (j < 4)%nat -> exists p h, ws_predict true r (FtsSimple (dt_store j)) = Ok (p, h).
Proof. exact dt_returns. Qed.
(** The second one is the first one in another order, the third one has an empty namespace more. *)
Example C97_example_sides : (forall i, sound_fts (FtsSimple (dt_store i))) /\
  reordered_fts (FtsSimple (dt_store 0%nat)) (FtsSimple (dt_store 1%nat)) /\ no_clash_fts ex_hash mx_gc (FtsSimple (dt_store 0%nat)) /\
  same_contents (FtsSimple (dt_store 0%nat)) (FtsSimple (dt_store 2%nat)) /\ no_repeat ex_hash mx_gc.
Proof. exact (conj dt_sound (conj dt_reordered (conj dt_clash (conj dt_contents (Forall_nil _))))). Qed.
(** Calls in other units and with other indices, without a panic. *)
Example C97_units_example : exists R0 : anyred RF, ws_new ex_hash true mx_gc (CCoin (@coin_default RF)) = Ok R0 /\ elem_free (projT1 R0) (projT2 R0) /\
  calm (answers true (projT2 R0) dt_calls) /\ calm (answers true (projT2 R0) (map (retell_call (fun i => i) (fun i x => (un_u i * x)%R)) dt_calls)).
Proof. exact dt_calm. Qed.
Example C97_units_sides : (forall i, un_u i <> 0%R) /\ un_u (2 ^ gc_bits mx_gc / 2)%N = 1%R /\ Forall paired_call dt_calls.
Proof. exact (conj un_nonzero (conj eq_refl dt_paired)). Qed.
Example C97_indices_example : exists R0 : anyred BF0, ws_new ex_hash true un_gc (CCoin (@coin_default BF0)) = Ok R0 /\ elem_free (projT1 R0) (projT2 R0) /\
  calm (answers true (projT2 R0) (un_bcalls 3)) /\ calm (answers true (projT2 R0) (map (retell_call un_swap (fun _ x => x)) (un_bcalls 3))).
Proof. exact dt_indices. Qed.
