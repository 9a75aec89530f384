(** C100: actions the model has no reason to tell apart are treated alike.  [seen c ts i]: the
    index [i] is that of a feature, an interaction or the constant of one of the objects [ts] the
    regressor was shown in training. *)
From Coq Require Import List NArith ZArith Bool Reals Lra.
From Verif Require Import Base FloatOps FloatR Model_Hash Model_Features Model_Weights Model_Interactions Model_Types Model_Coin Model_Stack
  Model_Factory Spec_Features Spec_Coin Spec_Stack Spec_Reductions Spec_Total Spec_Empty Spec_Delegate Spec_Shuffle Spec_Merge Spec_Elem Spec_ElemStack Spec_Trained Spec_Unseen Spec_Alike
  Proof_StackProps Proof_EmptyProps Proof_ShuffleEx Proof_UnseenEx Proof_Alike Proof_AlikeMore Proof_AlikeEx.
Import ListNotations.
Local Open Scope R_scope.

(** C100.  An action that is listed twice gets the same score twice; in any arithmetic. *)
Theorem C100_twice : forall (O : FOps) dbg n (r : red O n) s acts i j b sc f', nth_error acts i = Some b -> nth_error acts j = Some b ->
  ws_predict dbg r (FtsCb s acts) = Ok (PrScores sc, f') -> tied sc i j.
Proof. exact same_action. Qed.
Print Assumptions C100_twice.

(** C100.  In exact arithmetic: two actions that differ only at indices not seen in training get
    the same score. *)
Theorem C100_scores : forall H gc (NR : no_repeat H gc) dbg (c : rcfg RF) R0 h tss r,
  ws_new H dbg gc c = Ok R0 -> (gc_bits gc < 32)%N -> elem_free (projT1 R0) (projT2 R0) ->
  Forall2 (shows (projT2 R0)) h tss -> learn_all dbg (projT2 R0) h = Ok r ->
  forall s acts i j a b sc f', sound_fts (FtsCb s acts) -> all_below (2 ^ gc_bits gc) (FtsCb s acts) ->
  nth_error acts i = Some a -> nth_error acts j = Some b ->
  alike (bottom _ (projT2 R0)) (seen (bottom _ (projT2 R0)) (concat tss)) s a b ->
  ws_predict dbg r (FtsCb s acts) = Ok (PrScores sc, f') -> tied sc i j.
Proof. exact alike_scores. Qed.
Print Assumptions C100_scores.

(** With softmax on top they get the same probability. *)
Theorem C100_softmax : forall H gc (NR : no_repeat H gc) dbg (ueps la : R) (c' : rcfg RF) R0 h tss r s acts i j a b (q : list (N * R)) f',
  ws_new H dbg gc (CSoftmax (ueps : RF) (la : RF) c') = Ok R0 -> (gc_bits gc < 32)%N -> elem_free (projT1 R0) (projT2 R0) -> 0 <= ueps <= 1 -> 0 <= la ->
  Forall2 (shows (projT2 R0)) h tss -> learn_all dbg (projT2 R0) h = Ok r ->
  sound_fts (FtsCb s acts) -> all_below (2 ^ gc_bits gc) (FtsCb s acts) -> nth_error acts i = Some a -> nth_error acts j = Some b ->
  alike (bottom _ (projT2 R0)) (seen (bottom _ (projT2 R0)) (concat tss)) s a b ->
  ws_predict dbg r (FtsCb s acts) = Ok (PrProbs (q : list (N * RF)), f') -> tied q i j.
Proof. exact alike_softmax. Qed.
Print Assumptions C100_softmax.

(** C100.  If the model can tell none of the actions apart, softmax and SquareCB give every action
    the same probability, and greedy favours the first one. *)
Theorem C100_even : forall H gc (NR : no_repeat H gc) dbg (c : rcfg RF) R0 h tss r s acts p f',
  ws_new H dbg gc c = Ok R0 -> (gc_bits gc < 32)%N -> elem_free (projT1 R0) (projT2 R0) -> sane c ->
  Forall2 (shows (projT2 R0)) h tss -> learn_all dbg (projT2 R0) h = Ok r ->
  sound_fts (FtsCb s acts) -> all_below (2 ^ gc_bits gc) (FtsCb s acts) ->
  (forall a b, In a acts -> In b acts -> alike (bottom _ (projT2 R0)) (seen (bottom _ (projT2 R0)) (concat tss)) s a b) ->
  ws_predict dbg r (FtsCb s acts) = Ok (p, f') ->
  exists q : list (N * R), p = PrProbs (q : list (N * RF)) /\
    match c with CGreedy eps _ => first_favoured eps q (length acts) | _ => even q (length acts) end.
Proof. exact alike_even. Qed.
Print Assumptions C100_even.

(** That is how every workspace starts, whatever the features. *)
Theorem C100_untrained : forall H gc (NR : no_repeat H gc) dbg (c : rcfg RF) R0 s acts p f',
  ws_new H dbg gc c = Ok R0 -> (gc_bits gc < 32)%N -> elem_free (projT1 R0) (projT2 R0) -> sane c ->
  sound_fts (FtsCb s acts) -> all_below (2 ^ gc_bits gc) (FtsCb s acts) ->
  ws_predict dbg (projT2 R0) (FtsCb s acts) = Ok (p, f') ->
  exists q : list (N * R), p = PrProbs (q : list (N * RF)) /\
    match c with CGreedy eps _ => first_favoured eps q (length acts) | _ => even q (length acts) end.
Proof. exact untrained_even. Qed.
Print Assumptions C100_untrained.

(** A bare contextual bandit (0), greedy (1), softmax (2) and SquareCB (3), trained on one example
    with an interaction of the context with the actions; of the three actions asked about, the last
    two differ in a feature that is not seen in training. *)
Example C100_example : forall x all, (x < 4)%nat -> exists (R0 : anyred RF) r p g, ws_new ex_hash false sh_gc (al_cfg x) = Ok R0 /\
  elem_free (projT1 R0) (projT2 R0) /\ Forall2 (shows (projT2 R0)) [(us_fts 0%nat, LbCb 0 (@f1 RF) (@f1 RF))] [[us_shown]] /\
  learn_all false (projT2 R0) [(us_fts 0%nat, LbCb 0 (@f1 RF) (@f1 RF))] = Ok r /\
  (forall a b, In a (al_acts false) -> In b (al_acts false) ->
    alike (bottom _ (projT2 R0)) (seen (bottom _ (projT2 R0)) (concat [[us_shown]])) al_ctx a b) /\
  ws_predict false r (FtsCb al_ctx (al_acts all)) = Ok (p, g) /\
  match x with 0%nat => exists sc, p = PrScores sc | _ => exists q, p = PrProbs q end.
Proof. exact al_example. Qed.
Example C100_example_sides : no_repeat ex_hash sh_gc /\ (forall b, sound_fts (FtsCb al_ctx (al_acts b))) /\ (forall b, all_below (2 ^ gc_bits sh_gc) (FtsCb al_ctx (al_acts b))) /\
  (forall x, (x < 3)%nat -> sane (al_cfg (S x))) /\ us_store 3%nat <> us_store 4%nat /\
  al_acts true = [us_store 2%nat; us_store 3%nat; us_store 4%nat] /\ al_acts false = [us_store 3%nat; us_store 4%nat].
Proof. exact (conj sh_no_repeat (conj al_sound (conj al_below (conj al_sane (conj al_differ (conj eq_refl eq_refl)))))). Qed.
(** New workspaces. *)
Example C100_untrained_example : forall x all, (x < 3)%nat -> exists (R0 : anyred RF) q g, ws_new ex_hash false sh_gc (al_cfg (S x)) = Ok R0 /\ elem_free (projT1 R0) (projT2 R0) /\
  ws_predict false (projT2 R0) (FtsCb al_ctx (al_acts all)) = Ok (PrProbs q, g).
Proof. exact al_untrained. Qed.
