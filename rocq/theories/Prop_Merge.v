(** C96: a prediction depends only on the total value of each feature. *)
From Coq Require Import List NArith ZArith Bool Reals.
From Verif Require Import Base FloatOps FloatR FloatB32 Model_Hash Model_Features Model_Interactions
  Model_Types Model_Coin Model_Stack Model_Factory Spec_Features Spec_Stack Spec_Reductions Spec_Total Spec_Empty Spec_Delegate Spec_Shuffle Spec_Merge
  Proof_StackProps Proof_EmptyProps Proof_ShuffleEx Proof_Merge Proof_MergeEx.
Import ListNotations.

(** C96.  In exact arithmetic a feature that occurs several times counts in a prediction like
    one feature with the sum of the values, in any stack without elementwise interactions and
    with any interactions of different namespaces. *)
Theorem C96_predict : forall H gc (NR : no_repeat H gc) (c : rcfg RF) R0 r f g p f',
  ws_new H false gc c = Ok R0 -> reach false (projT2 R0) r -> elem_free (projT1 R0) (projT2 R0) ->
  sound_fts f -> sound_fts g -> merged_fts f g ->
  ws_predict false r f = Ok (p, f') -> exists g', ws_predict false r g = Ok (p, g').
Proof. exact merged_predict. Qed.
Print Assumptions C96_predict.

(** The same for debug builds, when both calls return. *)
Theorem C96_debug : forall H gc (NR : no_repeat H gc) (c : rcfg RF) R0 r f g p q f' g',
  ws_new H true gc c = Ok R0 -> reach true (projT2 R0) r -> elem_free (projT1 R0) (projT2 R0) ->
  sound_fts f -> sound_fts g -> merged_fts f g ->
  ws_predict true r f = Ok (p, f') -> ws_predict true r g = Ok (q, g') -> p = q.
Proof. exact merged_debug. Qed.
Print Assumptions C96_debug.

(** Without interactions the raw prediction of the regressor is linear in the features, up to
    the constant. *)
Theorem C96_linear : forall H dbg gc (cfg : coin_config RF) R0 r al be a b x p q s fa fb fx,
  ws_new H dbg gc (CCoin cfg) = Ok R0 -> reach dbg (projT2 R0) r ->
  gc_inter gc = [] -> (gc_const gc = true -> (al + be = 1)%R) ->
  sound a -> sound b -> sound x -> mixture al be a b x ->
  ws_predict dbg r (FtsSimple a) = Ok (p, fa) -> ws_predict dbg r (FtsSimple b) = Ok (q, fb) ->
  ws_predict dbg r (FtsSimple x) = Ok (s, fx) ->
  raw_of s = (al * raw_of p + be * raw_of q)%R.
Proof. exact mixture_main. Qed.
Print Assumptions C96_linear.

(** Training does not depend on the total only: learning from one feature given twice leads to
    other predictions than learning from it given once with the sum, at binary32. *)
Theorem C96_learn_refuted : forall ex lx px, let O := BF ex lx px in
  ~ (forall H gc (c : coin_config O) k i v y R0 s t r1 r2 f1' f2' p q a b g1 g2,
       ws_new H false gc (CCoin c) = Ok R0 -> fops_run false (twice k i v) fstore0 = Ok s -> fops_run false (once k i v) fstore0 = Ok t ->
       ws_learn false (projT2 R0) (FtsSimple (s 0%nat)) (LbSimple y f1) = Ok (r1, f1') ->
       ws_learn false (projT2 R0) (FtsSimple (t 0%nat)) (LbSimple y f1) = Ok (r2, f2') ->
       ws_predict false r1 (FtsSimple (t 0%nat)) = Ok (PrScalar a p, g1) ->
       ws_predict false r2 (FtsSimple (t 0%nat)) = Ok (PrScalar b q, g2) -> f_eqb O p q = true).
Proof. exact merge_learn_refuted. Qed.
Print Assumptions C96_learn_refuted.

(** A greedy stack with an interaction of the context with the actions: the hypotheses hold for
    one example with repeated features and with the values added up. *)
Example C96_example : forall eps : R, exists (R0 : anyred RF) r h1 q g, ws_new ex_hash false sh_gc (sh_cfg eps) = Ok R0 /\
  elem_free (projT1 R0) (projT2 R0) /\
  ws_learn false (projT2 R0) (mg_fts 0%nat) (LbCb 0%N (@f1 RF) (@f1 RF)) = Ok (r, h1) /\ reach false (projT2 R0) r /\
  ws_predict false r (mg_fts 0%nat) = Ok (PrProbs q, g).
Proof. exact mg_example. Qed.
Example C96_example_sides : no_repeat ex_hash sh_gc /\ (forall i, sound_fts (mg_fts i)) /\ merged_fts (mg_fts 0%nat) (mg_fts 1%nat).
Proof. exact (conj sh_no_repeat (conj mg_sound_fts mg_merged)). Qed.
(** A regressor with the constant, in both builds: the first two examples have the third one as
    their mean, and the fourth one has a feature of the first one in two parts. *)
Example C96_mixture_example : forall dbg, exists (R0 : anyred RF) r h1, ws_new ex_hash dbg mx_gc (CCoin (@coin_default RF)) = Ok R0 /\
  ws_learn dbg (projT2 R0) (FtsSimple (mx_store 0%nat)) (LbSimple (@f1 RF) (@f1 RF)) = Ok (r, h1) /\ reach dbg (projT2 R0) r /\
  forall i, (i < 4)%nat -> exists p g, ws_predict dbg r (FtsSimple (mx_store i)) = Ok (p, g).
Proof. exact mx_example. Qed.
Example C96_mixture_sides : (forall i, sound (mx_store i)) /\
  mixture (/ 2) (/ 2) (mx_store 0%nat) (mx_store 1%nat) (mx_store 2%nat) /\ merged (mx_store 0%nat) (mx_store 3%nat).
Proof. exact (conj mx_sound (conj mx_mixture mx_merged)). Qed.
