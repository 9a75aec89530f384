(** C89: the order of the actions does not matter. *)
From Coq Require Import List NArith ZArith Bool Reals.
From Verif Require Import Base FloatOps FloatR FloatB32 Model_Hash Model_Features Model_Interactions
  Model_Types Model_Coin Model_Stack Model_Factory Spec_Stack Spec_Delegate Spec_ActOrder
  Proof_StackProps Proof_UnbiasedEx Proof_ActOrder Proof_ActOrderEx.
Import ListNotations.

(** Moving an action moves its score; in any arithmetic. *)
Theorem C89_scores : forall (O : FOps) dbg n (r : red O n) pi f g l f', moved_fts pi f g ->
  ws_predict dbg r f = Ok (PrScores l, f') ->
  exists l' g', ws_predict dbg r g = Ok (PrScores l', g') /\ moved_pred pi l l' /\ moved_fts pi f' g'.
Proof. exact ws_scores_moved. Qed.
Print Assumptions C89_scores.

(** Learning leads to the same model when the label names the action at its new position; in any
    arithmetic, for stacks that do not use inverse propensity scores. *)
Theorem C89_learn : forall (O : FOps) dbg n (r : red O n) pi f g lb r' f', moved_fts pi f g -> no_ips n r ->
  ws_learn dbg r f lb = Ok (r', f') ->
  exists g', ws_learn dbg r g (moved_label pi lb) = Ok (r', g') /\ moved_fts pi f' g'.
Proof. exact ws_learn_moved. Qed.
Print Assumptions C89_learn.

(** Training on a data set leads to the same model, whatever the order of the actions in each
    example. *)
Theorem C89_training : forall (O : FOps) dbg n (r0 : red O n) exs exs' r, no_ips n r0 ->
  Forall2 (fun x y => exists pi, moved_fts pi (fst x) (fst y) /\ snd y = moved_label pi (snd x)) exs exs' ->
  learn_all dbg r0 exs = Ok r -> learn_all dbg r0 exs' = Ok r.
Proof. exact ws_training_moved. Qed.
Print Assumptions C89_training.

(** Exact arithmetic: the probabilities move with the actions, always for softmax, and for greedy
    and SquareCB when one action has the lowest score. *)
Theorem C89_probabilities : forall dbg n w k (ch : red RF n) pi f g (q : list (N * R)) f', moved_fts pi f g -> is_explorer k ->
  (is_softmax k \/ forall sc h, ws_predict dbg ch f = Ok (PrScores (sc : list (N * RF)), h) -> unique_min sc) ->
  ws_predict dbg ((w, k, ch) : red RF (S n)) f = Ok (PrProbs (q : list (N * RF)), f') ->
  exists (q' : list (N * R)) g', ws_predict dbg ((w, k, ch) : red RF (S n)) g = Ok (PrProbs (q' : list (N * RF)), g') /\
    moved_pred pi q q' /\ moved_fts pi f' g'.
Proof. exact ws_probs_moved. Qed.
Print Assumptions C89_probabilities.

(** Two actions changing places. *)
Example C89_example : moved_fts swap2 (ao_fts true) (ao_fts false) /\ moved_fts swap2 ub_fts (FtsCb (Some (ub_store 0%nat)) [ub_store 2%nat; ub_store 1%nat]).
Proof. exact (conj ao_moved (conj eq_refl (swap2_moved _ _ _))). Qed.
(** Three rounds of mtr learning on either order, in binary32: the same scores. *)
Example C89_mtr_example : ao_ask Mtr true = ao_ask Mtr false /\ ao_ask Mtr true <> None.
Proof. exact ao_mtr. Qed.
(** With inverse propensity scores the models differ. *)
Example C89_ips_example : ao_ask Ips true <> ao_ask Ips false.
Proof. exact ao_ips. Qed.
(** A trained model whose scores have one minimum, with greedy on top. *)
Example C89_greedy_example : forall eps : R, exists w1 (r : red RF 1) sc q h f',
  ws_predict false r ub_fts = Ok (PrScores (sc : list (N * RF)), h) /\ unique_min sc /\ length sc = 2%nat /\
  ws_predict false ((w1, KGreedy (eps : RF), r) : red RF 2) ub_fts = Ok (PrProbs q, f').
Proof. exact ao_trained. Qed.
(** Without one minimum greedy favours the action that comes first. *)
Example C89_tie_example : exists x y, ao_new (CGreedy (f_lit BF0 1 2) (CCbAdf Mtr (CCoin (@coin_default BF0)))) = Some ([(0%N, x); (1%N, y)], [(0%N, x); (1%N, y)]) /\
  f_ltb BF0 y x = true /\ ~ moved_pred swap2 [(0%N, x); (1%N, y)] [(0%N, x); (1%N, y)].
Proof. exact ao_tie. Qed.
