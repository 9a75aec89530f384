(** C99: features that no training example had do not count in a prediction.  [seen c ts i]: the
    index [i] is that of a feature, an interaction or the constant of one of the objects [ts] the
    regressor was shown in training. *)
From Coq Require Import List NArith ZArith Bool Reals.
From Verif Require Import Base FloatOps FloatR FloatB32 Model_Hash Model_Features Model_Weights Model_Interactions Model_Types Model_Coin Model_Stack
  Model_Factory Spec_Features Spec_Coin Spec_Stack Spec_Reductions Spec_Total Spec_Empty Spec_Delegate Spec_Shuffle Spec_Merge Spec_Elem Spec_ElemStack Spec_Trained Spec_Unseen
  Proof_StackProps Proof_EmptyProps Proof_ShuffleEx Proof_MergeEx Proof_Unseen Proof_UnseenMore Proof_UnseenEx.
Import ListNotations.
Open Scope N_scope.

(** C99.  In exact arithmetic, in any stack without elementwise interactions: if two examples
    have the same total value at all indices that were seen in training, whatever they have
    elsewhere, the predictions are the same. *)
Theorem C99_predict : forall H gc (NR : no_repeat H gc) (c : rcfg RF) R0 h tss r f g p f',
  ws_new H false gc c = Ok R0 -> gc_bits gc < 32 -> elem_free (projT1 R0) (projT2 R0) ->
  Forall2 (shows (projT2 R0)) h tss -> learn_all false (projT2 R0) h = Ok r ->
  sound_fts f -> sound_fts g -> all_below (2 ^ gc_bits gc) f -> all_below (2 ^ gc_bits gc) g ->
  like_fts (bottom _ (projT2 R0)) (seen (bottom _ (projT2 R0)) (concat tss)) f g ->
  ws_predict false r f = Ok (p, f') -> exists g', ws_predict false r g = Ok (p, g').
Proof. exact unseen_predict. Qed.
Print Assumptions C99_predict.

(** The same for debug builds, when training and both predictions return. *)
Theorem C99_debug : forall H gc (NR : no_repeat H gc) (c : rcfg RF) R0 h tss r f g p q f' g',
  ws_new H true gc c = Ok R0 -> gc_bits gc < 32 -> elem_free (projT1 R0) (projT2 R0) ->
  Forall2 (shows (projT2 R0)) h tss -> learn_all true (projT2 R0) h = Ok r ->
  sound_fts f -> sound_fts g -> all_below (2 ^ gc_bits gc) f -> all_below (2 ^ gc_bits gc) g ->
  like_fts (bottom _ (projT2 R0)) (seen (bottom _ (projT2 R0)) (concat tss)) f g ->
  ws_predict true r f = Ok (p, f') -> ws_predict true r g = Ok (q, g') -> p = q.
Proof. exact unseen_debug. Qed.
Print Assumptions C99_debug.

(** Without interactions: it is enough that the examples have the same values at the seen
    indices in every namespace; new features and new namespaces can be added. *)
Theorem C99_namespaces : forall H gc (c : rcfg RF) R0 h tss r f g p f',
  ws_new H false gc c = Ok R0 -> gc_bits gc < 32 -> elem_free (projT1 R0) (projT2 R0) -> gc_inter gc = [] ->
  Forall2 (shows (projT2 R0)) h tss -> learn_all false (projT2 R0) h = Ok r ->
  sound_fts f -> sound_fts g -> all_below (2 ^ gc_bits gc) f -> all_below (2 ^ gc_bits gc) g ->
  same_fts_on (seen (bottom _ (projT2 R0)) (concat tss)) f g ->
  ws_predict false r f = Ok (p, f') -> exists g', ws_predict false r g = Ok (p, g').
Proof. exact unseen_namespaces. Qed.
Print Assumptions C99_namespaces.

(** C99.  In single precision: leaving out features with finite values and indices that were not
    seen, the regressor returns the same number before clamping. *)
Theorem C99_single : forall ex lx px, let O := BF ex lx px in forall H gc (cfg : coin_config O) R0 h tss r a b l k y q f',
  ws_new H false gc (CCoin cfg) = Ok R0 -> gc_bits gc < 32 ->
  Forall2 (shows (projT2 R0)) h tss -> learn_all false (projT2 R0) h = Ok r -> below (2 ^ gc_bits gc) a ->
  let c := bottom _ (projT2 R0) in
  fe_list false a (co_pairs c) (co_triples c) (co_bits c) (co_const c) = Ok l ->
  fe_list false b (co_pairs c) (co_triples c) (co_bits c) (co_const c) = Ok k ->
  leaves_out (seen c (concat tss)) l k ->
  ws_predict false r (FtsSimple a) = Ok (PrScalar y q, f') ->
  exists y' q', ws_predict false r (FtsSimple b) = Ok (PrScalar y' q', FtsSimple b) /\ f_eqb O q q' = true.
Proof. exact unseen_single. Qed.
Print Assumptions C99_single.

(** A greedy stack with an interaction of the context with the actions: the second example has a
    new namespace in the context and a new feature in an action. *)
Example C99_example : forall eps : R, exists (R0 : anyred RF) r q g, ws_new ex_hash false sh_gc (sh_cfg eps) = Ok R0 /\
  elem_free (projT1 R0) (projT2 R0) /\ Forall2 (shows (projT2 R0)) [(us_fts 0%nat, LbCb 0 (@f1 RF) (@f1 RF))] [[us_shown]] /\
  learn_all false (projT2 R0) [(us_fts 0%nat, LbCb 0 (@f1 RF) (@f1 RF))] = Ok r /\
  like_fts (bottom _ (projT2 R0)) (seen (bottom _ (projT2 R0)) (concat [[us_shown]])) (us_fts 0%nat) (us_fts 1%nat) /\
  ws_predict false r (us_fts 0%nat) = Ok (PrProbs q, g).
Proof. exact us_example. Qed.
Example C99_example_sides : no_repeat ex_hash sh_gc /\ (forall i, sound_fts (us_fts i)) /\ forall i, (i < 2)%nat -> all_below (2 ^ gc_bits sh_gc) (us_fts i).
Proof. exact (conj sh_no_repeat (conj us_sound_fts us_below)). Qed.
(** A regressor without interactions, in both builds. *)
Example C99_namespaces_example : forall dbg, exists (R0 : anyred RF) r, ws_new ex_hash dbg mx_gc (CCoin (@coin_default RF)) = Ok R0 /\ elem_free (projT1 R0) (projT2 R0) /\
  Forall2 (shows (projT2 R0)) [(ux_fts RF 0%nat, LbSimple f1 f1)] [[ux_store RF 0%nat]] /\
  learn_all dbg (projT2 R0) [(ux_fts RF 0%nat, LbSimple f1 f1)] = Ok r /\
  same_fts_on (seen (bottom _ (projT2 R0)) (concat [[ux_store RF 0%nat]])) (ux_fts RF 0%nat) (ux_fts RF 1%nat) /\
  like_fts (bottom _ (projT2 R0)) (seen (bottom _ (projT2 R0)) (concat [[ux_store RF 0%nat]])) (ux_fts RF 0%nat) (ux_fts RF 1%nat) /\
  forall i, (i < 2)%nat -> exists p g, ws_predict dbg r (ux_fts RF i) = Ok (p, g).
Proof. exact ux_example. Qed.
Example C99_namespaces_sides : gc_inter mx_gc = [] /\ (forall i, sound_fts (ux_fts RF i)) /\ forall i, (i < 2)%nat -> all_below (2 ^ gc_bits mx_gc) (ux_fts RF i).
Proof. exact (conj eq_refl (conj (ux_sound RF) (ux_below RF))). Qed.
(** Single precision: the prediction is not zero. *)
Example C99_single_example : exists (R0 : anyred BF0) r y q g, ws_new ex_hash false mx_gc (CCoin (@coin_default BF0)) = Ok R0 /\
  Forall2 (shows (projT2 R0)) [(ux_fts BF0 0%nat, LbSimple f1 f1); (ux_fts BF0 0%nat, LbSimple f1 f1)] [[ux_store BF0 0%nat]; [ux_store BF0 0%nat]] /\
  learn_all false (projT2 R0) [(ux_fts BF0 0%nat, LbSimple f1 f1); (ux_fts BF0 0%nat, LbSimple f1 f1)] = Ok r /\ below (2 ^ 8) (ux_store BF0 1%nat) /\
  (let c := bottom _ (projT2 R0) in
   (forall i, (i < 2)%nat -> fe_list false (ux_store BF0 i) (co_pairs c) (co_triples c) (co_bits c) (co_const c) = Ok (ux_list i)) /\
   leaves_out (seen c (concat [[ux_store BF0 0%nat]; [ux_store BF0 0%nat]])) (ux_list 1%nat) (ux_list 0%nat)) /\
  ws_predict false r (ux_fts BF0 1%nat) = Ok (PrScalar y q, g) /\ f_eqb BF0 q f0 = false.
Proof. exact ux_single. Qed.
