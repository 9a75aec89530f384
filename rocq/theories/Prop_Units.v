(** C91: the units of the features do not matter.  C92: the indices of the features do not
    matter. *)
From Coq Require Import List NArith ZArith Bool Reals.
From Verif Require Import Base FloatOps FloatR FloatB32 Model_Hash Model_Features Model_Interactions
  Model_Types Model_Coin Model_Stack Model_Factory Spec_Features Spec_Stack Spec_Save Spec_Empty Spec_Units
  Proof_StackProps Proof_Retell Proof_Units Proof_ShuffleEx Proof_UnitsEx.
Import ListNotations.

(** Exact arithmetic.  Multiply the values of the feature with index [i] by [u i], in every
    call: every answer is the same. *)
Theorem C91_units : forall (u : N -> R) (U : forall i, u i <> 0%R) H gc (c : rcfg RF) R0 cs,
  (gc_bits gc < 32)%N -> gc_inter gc = [] -> (gc_const gc = true -> u (2 ^ gc_bits gc / 2)%N = 1%R) ->
  ws_new H false gc c = Ok R0 -> elem_free (projT1 R0) (projT2 R0) -> Forall paired_call cs ->
  answers false (projT2 R0) (map (retell_call (fun i => i) (fun i x => (u i * x)%R)) cs) =
  map (retell_answer (fun i => i) (fun i x => (u i * x)%R)) (answers false (projT2 R0) cs).
Proof. exact units_answers. Qed.
Print Assumptions C91_units.

(** Any arithmetic.  Give the feature with index [i] the index [ix i], in every call: every
    answer is the same. *)
Theorem C92_indices : forall (O : FOps) H gc ix (c : rcfg O) R0 cs,
  (gc_bits gc < 32)%N -> gc_inter gc = [] -> renaming gc ix ->
  ws_new H false gc c = Ok R0 -> elem_free (projT1 R0) (projT2 R0) -> Forall paired_any cs ->
  answers false (projT2 R0) (map (retell_call ix (fun _ x => x)) cs) =
  map (retell_answer ix (fun _ x => x)) (answers false (projT2 R0) cs).
Proof. exact (@renamed_answers). Qed.
Print Assumptions C92_indices.

(** Features made through the interface are as the theorems want them. *)
Theorem C92_built : forall (O : FOps) (a : sfeats O), built a -> paired a.
Proof. exact built_paired. Qed.
Print Assumptions C92_built.

(** A greedy stack over a context and two actions: the hypotheses hold, learning and the
    prediction return, and the features told in the other units differ. *)
Example C91_example : forall eps : R, exists (R0 : anyred RF) h1 q g, ws_new ex_hash false un_gc (sh_cfg eps) = Ok R0 /\
  elem_free (projT1 R0) (projT2 R0) /\
  answers false (projT2 R0) un_calls = [AnsFeatures None h1; AnsFeatures (Some (PrProbs q)) g].
Proof. exact un_example. Qed.
Example C91_example_sides : (forall i, un_u i <> 0%R) /\ un_u (2 ^ gc_bits un_gc / 2)%N = 1%R /\ Forall paired_call un_calls /\
  retell (fun i => i) (fun i x => (un_u i * x)%R) (sh_store 0%nat) = [(ex_ns 97, mkSfn (ex_ns 97) [3%N; 4%N] [100%R; 2%R] true)].
Proof. exact (conj un_nonzero (conj eq_refl (conj un_paired un_differ))). Qed.
(** Binary32, values 1 and 3: the predictions agree here, the sensitivity does not. *)
Example C91_sensitivity_example : removelast (un_run (un_bcalls 1)) = removelast (un_run (un_bcalls 3)) /\ un_last (un_run (un_bcalls 1)) <> un_last (un_run (un_bcalls 3)) /\
  nth 2 (un_run (un_bcalls 1)) None <> Some f0 /\ nth 2 (un_run (un_bcalls 1)) None <> None.
Proof. exact un_sens. Qed.
(** Binary32: the hypotheses of C92 hold for one exchange of two indices. *)
Example C92_example : renaming un_gc un_swap /\ Forall paired_any (un_bcalls 3) /\
  exists R0, ws_new ex_hash false un_gc (CCoin (@coin_default BF0)) = Ok R0 /\ elem_free (projT1 R0) (projT2 R0).
Proof. exact (conj un_renaming (conj un_any un_new_b)). Qed.
(** The exchange changes no answer; one index for two features does. *)
Example C92_merge_example : un_run (map (retell_call un_swap (fun _ x => x)) (un_bcalls 3)) = un_run (un_bcalls 3) /\
  un_run (map (retell_call un_merge (fun _ x => x)) (un_bcalls 3)) <> un_run (un_bcalls 3).
Proof. exact un_renamed. Qed.
