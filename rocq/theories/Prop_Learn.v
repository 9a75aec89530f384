(** C84: what training on consistently good and bad examples leads to.  Exact arithmetic. *)
From Coq Require Import List NArith ZArith Reals Permutation.
From Verif Require Import Base FloatOps FloatR Model_Hash Model_Features Model_Weights Model_Interactions Model_Types Model_Explore
  Model_Coin Model_Stack Model_Factory Spec_Coin Spec_Reductions Spec_Metrics Spec_OffPolicy Spec_Unbiased Spec_Learn
  Proof_StackProps Proof_CoinR Proof_UnbiasedEx Proof_Learn Proof_LearnCb Proof_LearnEx.
Import ListNotations.
Open Scope R_scope.

(** A feature that only occurs with the highest label, and with nonnegative values, never gets a negative weight; one
    that only occurs with the lowest label never gets a positive one, whatever the other features do.  The weight is
    not zero if the feature was noticed: the first example with a label other than 0 has it, and a later example. *)
Theorem C84_weights : forall H dbg (cfg : coin_config RF) gc nma n (c0 : coin RF) lo hi h i,
  coin_new H dbg cfg gc nma = Ok c0 -> (0 < nma < 2 ^ 8)%N -> bits_to_max_feature_index dbg (gc_bits gc) = Ok n ->
  0 < (cc_alpha cfg : R) -> lo <= lo0 cfg -> hi0 cfg <= hi -> Forall (fine n lo hi) h -> (i < n)%N ->
  exists c x rest, train dbg h c0 = Ok c /\ stored dbg c i = Ok (x :: rest) /\
    (only_with dbg c0 h i hi -> 0 <= (x : R) /\ (noticed dbg c0 h i -> 0 < (x : R))) /\
    (only_with dbg c0 h i lo -> (x : R) <= 0 /\ (noticed dbg c0 h i -> (x : R) < 0)).
Proof. exact signs_main. Qed.
Print Assumptions C84_weights.

(** So of two feature vectors that are told apart by such features, the one with the lowest labels is never given the
    higher raw prediction, and it is given a lower one if one of these features was noticed. *)
Theorem C84_order : forall H dbg (cfg : coin_config RF) gc nma n (c0 : coin RF) lo hi h f g,
  coin_new H dbg cfg gc nma = Ok c0 -> (0 < nma < 2 ^ 8)%N -> bits_to_max_feature_index dbg (gc_bits gc) = Ok n ->
  0 < (cc_alpha cfg : R) -> lo <= lo0 cfg -> hi0 cfg <= hi -> Forall (fine n lo hi) h -> below n f -> below n g ->
  exists c lf lg qf qg (rf rg : R), train dbg h c0 = Ok c /\ coin_feats dbg c0 f = Ok lf /\ coin_feats dbg c0 g = Ok lg /\
    coin_predict dbg c f = Ok (PrScalar qf (rf : RF)) /\ coin_predict dbg c g = Ok (PrScalar qg (rg : RF)) /\
    forall a b, told_apart dbg c0 h lo hi lf lg a b ->
      rf <= rg /\ (some_noticed dbg c0 h a \/ some_noticed dbg c0 h b -> rf < rg).
Proof. exact order_main. Qed.
Print Assumptions C84_order.

(** The same for the scores of the actions of a bandit stack trained with mtr on any log. *)
Theorem C84_scores : forall H dbg (cfg : coin_config RF) gc nma n (c0 : coin RF) lo hi w w0 l r f p f',
  coin_new H dbg cfg gc nma = Ok c0 -> (0 < nma < 2 ^ 8)%N -> bits_to_max_feature_index dbg (gc_bits gc) = Ok n ->
  0 < (cc_alpha cfg : R) -> lo <= lo0 cfg -> hi0 cfg <= hi ->
  taught dbg ((w, KCbAdf Mtr 0 0, (w0, c0)) : red RF 1) l r -> countable l -> Forall (fine n lo hi) (mtr_examples 0 0 l) ->
  Forall (below n) (seen_ips f) -> ws_predict dbg r f = Ok (p, f') ->
  exists sc, p = PrScores sc /\ forall i j a b, actions_apart dbg c0 (mtr_examples 0 0 l) lo hi f i j a b ->
    exists si sj : R, nth_error sc i = Some (N.of_nat i, si : RF) /\ nth_error sc j = Some (N.of_nat j, sj : RF) /\ si <= sj /\
      (some_noticed dbg c0 (mtr_examples 0 0 l) a \/ some_noticed dbg c0 (mtr_examples 0 0 l) b -> si < sj).
Proof. exact scores_main. Qed.
Print Assumptions C84_scores.

(** With an exploration reduction on top the better action is at least as probable. *)
Theorem C84_probabilities : forall H dbg (cfg : coin_config RF) gc nma n (c0 : coin RF) lo hi w1 k w w0 l r f p f',
  coin_new H dbg cfg gc nma = Ok c0 -> (0 < nma < 2 ^ 8)%N -> bits_to_max_feature_index dbg (gc_bits gc) = Ok n ->
  0 < (cc_alpha cfg : R) -> lo <= lo0 cfg -> hi0 cfg <= hi -> sensible k ->
  taught dbg ((w1, k, ((w, KCbAdf Mtr 0 0, (w0, c0)) : red RF 1)) : red RF 2) l r -> countable l ->
  let h := mtr_examples 0 0 (handed_down k l) in
  Forall (fine n lo hi) h -> Forall (below n) (seen_ips f) -> ws_predict dbg r f = Ok (p, f') ->
  exists probs, p = PrProbs probs /\ forall i j a b, actions_apart dbg c0 h lo hi f i j a b ->
    some_noticed dbg c0 h a \/ some_noticed dbg c0 h b ->
    exists pi pj : R, nth_error probs i = Some (N.of_nat i, pi : RF) /\ nth_error probs j = Some (N.of_nat j, pj : RF) /\ pj <= pi.
Proof. exact probs_main. Qed.
Print Assumptions C84_probabilities.

(** Two actions, each with features of its own; one always costs lo and the other always costs hi > lo.  As soon as
    both have been drawn twice, in any order and with any probabilities, the first has the lower score. *)
Theorem C84_two_actions : forall H dbg (cfg : coin_config RF) gc nma n (c0 : coin RF) lo hi w w0 l r s a0 a1 l0 l1 g0 g1 common own0 own1 p f',
  let f := FtsCb (Some s) [a0; a1] in
  coin_new H dbg cfg gc nma = Ok c0 -> (0 < nma < 2 ^ 8)%N -> bits_to_max_feature_index dbg (gc_bits gc) = Ok n ->
  0 < (cc_alpha cfg : R) -> lo <= lo0 cfg -> hi0 cfg <= hi -> lo < hi ->
  Forall (below n) (seen_mtr f) -> Forall (below n) (seen_ips f) ->
  mapm (coin_feats dbg c0) (seen_mtr f) = Ok [l0; l1] -> mapm (coin_feats dbg c0) (seen_ips f) = Ok [g0; g1] ->
  Permutation g0 (common ++ own0) -> Permutation g1 (common ++ own1) -> own_features own0 l0 l1 -> own_features own1 l1 l0 ->
  settled_costs f lo hi l -> drawn_twice 0 l -> drawn_twice 1 l -> countable l ->
  taught dbg ((w, KCbAdf Mtr 0 0, (w0, c0)) : red RF 1) l r -> ws_predict dbg r f = Ok (p, f') ->
  exists s0 s1 : R, p = PrScores [(0%N, s0 : RF); (1%N, s1 : RF)] /\ s0 < s1.
Proof. exact two_actions_main. Qed.
Print Assumptions C84_two_actions.

(** ... and with exploration on top at least the same probability. *)
Theorem C84_two_actions_explored : forall H dbg (cfg : coin_config RF) gc nma n (c0 : coin RF) lo hi w1 k w w0 l r s a0 a1 l0 l1 g0 g1 common own0 own1 p f',
  let f := FtsCb (Some s) [a0; a1] in
  coin_new H dbg cfg gc nma = Ok c0 -> (0 < nma < 2 ^ 8)%N -> bits_to_max_feature_index dbg (gc_bits gc) = Ok n ->
  0 < (cc_alpha cfg : R) -> lo <= lo0 cfg -> hi0 cfg <= hi -> lo < hi -> sensible k ->
  Forall (below n) (seen_mtr f) -> Forall (below n) (seen_ips f) ->
  mapm (coin_feats dbg c0) (seen_mtr f) = Ok [l0; l1] -> mapm (coin_feats dbg c0) (seen_ips f) = Ok [g0; g1] ->
  Permutation g0 (common ++ own0) -> Permutation g1 (common ++ own1) -> own_features own0 l0 l1 -> own_features own1 l1 l0 ->
  settled_costs f lo hi l -> drawn_twice 0 l -> drawn_twice 1 l -> countable l ->
  taught dbg ((w1, k, ((w, KCbAdf Mtr 0 0, (w0, c0)) : red RF 1)) : red RF 2) l r -> ws_predict dbg r f = Ok (p, f') ->
  exists probs (p0 p1 : R), p = PrProbs probs /\ nth_error probs 0 = Some (0%N, p0 : RF) /\ nth_error probs 1 = Some (1%N, p1 : RF) /\ p1 <= p0.
Proof. exact two_probs_main. Qed.
Print Assumptions C84_two_actions_explored.

(** Four rounds, any costs: the examples made of them meet the hypotheses of the first four theorems ... *)
Example C84_example : forall lo hi, lo <= 0 <= hi -> lo < hi -> exists c0 : coin RF,
  coin_new ex_hash false (@coin_default RF) gc16n 1 = Ok c0 /\
  let h := mtr_examples 0 0 (lr_log lo hi) in
  Forall (fine 16 lo hi) h /\ actions_apart false c0 h lo hi ub_fts 0 1 lr_l0 lr_l1 /\
  told_apart false c0 h lo hi lr_l0 lr_l1 lr_l0 lr_l1 /\ only_with false c0 h 5 lo /\ only_with false c0 h 6 hi /\
  (some_noticed false c0 h lr_l0 \/ some_noticed false c0 h lr_l1).
Proof. exact lr_coin_example. Qed.

(** ... and the log those of the others; a new workspace learns it and predicts. *)
Example C84_log_example : forall lo hi, lo <= 0 <= hi -> lo < hi -> exists w w0 (c0 : coin RF) r p f',
  ws_new ex_hash false gc16n (CCbAdf Mtr (CCoin (@coin_default RF))) = Ok (existT (red RF) 1%nat (w, KCbAdf Mtr 0 0, (w0, c0))) /\
  coin_new ex_hash false (@coin_default RF) gc16n 1 = Ok c0 /\ 0 < (cc_alpha (@coin_default RF) : R) /\ lo <= lo0 (@coin_default RF) /\ hi0 (@coin_default RF) <= hi /\
  Forall (below 16) (seen_mtr ub_fts) /\ Forall (below 16) (seen_ips ub_fts) /\
  mapm (coin_feats false c0) (seen_mtr ub_fts) = Ok [lr_l0; lr_l1] /\ mapm (coin_feats false c0) (seen_ips ub_fts) = Ok [lr_l0; lr_l1] /\
  own_features lr_l0 lr_l0 lr_l1 /\ own_features lr_l1 lr_l1 lr_l0 /\
  settled_costs ub_fts lo hi (lr_log lo hi) /\ drawn_twice 0 (lr_log lo hi) /\ drawn_twice 1 (lr_log lo hi) /\ countable (lr_log lo hi) /\
  taught false ((w, KCbAdf Mtr 0 0, (w0, c0)) : red RF 1) (lr_log lo hi) r /\ ws_predict false r ub_fts = Ok (p, f').
Proof. exact lr_example. Qed.
Example C84_explored_example : forall lo hi eps, lo <= 0 <= hi -> lo < hi -> 0 <= eps <= 1 -> exists w1 w w0 (c0 : coin RF) r p f',
  ws_new ex_hash false gc16n (CGreedy eps (CCbAdf Mtr (CCoin (@coin_default RF)))) =
    Ok (existT (red RF) 2%nat (w1, KGreedy eps, ((w, KCbAdf Mtr 0 0, (w0, c0)) : red RF 1))) /\
  coin_new ex_hash false (@coin_default RF) gc16n 1 = Ok c0 /\ sensible (@KGreedy RF eps) /\
  taught false ((w1, KGreedy eps, ((w, KCbAdf Mtr 0 0, (w0, c0)) : red RF 1)) : red RF 2) (lr_log lo hi) r /\ ws_predict false r ub_fts = Ok (p, f').
Proof. exact lr_probs_example. Qed.
