(** C90: an exported model has entries only for the features it was trained on (release build). *)
From Coq Require Import List NArith ZArith Bool.
From Verif Require Import Base FloatOps FloatB32 Model_Hash Model_Features Model_Weights Model_Interactions Model_Types Model_Coin Model_Stack
  Model_Factory Spec_Features Spec_Coin Spec_Stack Spec_Reductions Spec_Delegate Spec_Elem Spec_ElemStack Spec_Trained Proof_FloatOrder
  Proof_StackProps Proof_ElemStackEx Proof_Trained Proof_TrainedEx.
Import ListNotations.
Open Scope N_scope.

(** Every stack, every training run that returns: the export returns, has at most one entry
    per index, and each of them is an index that the regressor uses on a feature object one
    of the training examples showed it. *)
Theorem C90_entries : forall e l p H gc (c : rcfg (BF e l p)) R h tss r d, ws_new H false gc c = Ok R -> gc_bits gc < 32 ->
  Forall2 (shows (projT2 R)) h tss -> learn_all false (projT2 R) h = Ok r ->
  exists nd, nd_from_dense d (co_w (bottom _ r)) = Ok nd /\ NoDup (entries nd) /\
    forall i, In i (entries nd) -> i < 2 ^ gc_bits gc /\ exists t, In t (concat tss) /\ uses false (bottom _ (projT2 R)) t i.
Proof. exact (fun e l p => trained_entries (BF_ford e l p) eq_refl). Qed.
Print Assumptions C90_entries.

Example C90_entries_example : exists R ts r, ws_new ex_hash false ex_gc es_cb = Ok R /\ gc_bits ex_gc < 32 /\
  Forall2 (shows (projT2 R)) [(es_ftr [3; 4]%nat, LbCb 0 (fl (O:=BF0) 1%Z) (fl (O:=BF0) 1%Z))] [ts] /\ ts <> [] /\
  learn_all false (projT2 R) [(es_ftr [3; 4]%nat, LbCb 0 (fl (O:=BF0) 1%Z) (fl (O:=BF0) 1%Z))] = Ok r.
Proof. exact tr_shown. Qed.

(** The stack of docs/source/reductions/elementwise_interaction.md: however many examples
    with vectors of at most [d] positions it is trained on, training returns and the model
    has at most [d] weights, at the indices of the products. *)
Theorem C90_vectors : forall e l p H gc d1 d2 cc R h d dd,
  ws_new H false gc (CCbAdf Mtr (CElem d1 d2 false (CCoin cc))) = Ok R -> gc_bits gc < 32 -> gc_const gc = false -> gc_inter gc = [] ->
  let one := nsdef_namespace H (gc_seed gc) d1 in let two := nsdef_namespace H (gc_seed gc) d2 in
  let base := ns_hash (composite one two) mod 2 ^ gc_bits gc in
  one <> two -> base + d <= 2 ^ gc_bits gc -> Forall (@two_vectors (BF e l p) (gc_bits gc) one two d) h ->
  exists r nd, learn_all false (projT2 R) h = Ok r /\ nd_from_dense dd (co_w (bottom _ r)) = Ok nd /\
    (forall i, In i (entries nd) -> base <= i < base + d) /\ (length (nd_map nd) <= N.to_nat d)%nat.
Proof. exact (fun e l p => docs_weights (BF_ford e l p) eq_refl). Qed.
Print Assumptions C90_vectors.

(** The vectors, the label and the settings of the documentation: exactly 3 weights. *)
Example C90_documentation : exists R, ws_new ex_hash false tr_gc tr_cfg = Ok R /\ gc_bits tr_gc < 32 /\
  (let one := nsdef_namespace ex_hash 0 (NDName es_b) in let two := nsdef_namespace ex_hash 0 (NDName es_e) in
   one <> two /\ ns_hash (composite one two) mod 2 ^ 4 + 3 <= 2 ^ 4 /\ Forall (two_vectors 4 one two 3) [tr_ex]) /\
  exists r nd, learn_all false (projT2 R) [tr_ex] = Ok r /\ nd_from_dense false (co_w (bottom _ r)) = Ok nd /\ length (nd_map nd) = 3%nat.
Proof. exact tr_docs. Qed.
