(** C83: what contextual bandit learning fits on average.  Exact arithmetic. *)
From Coq Require Import List NArith ZArith Reals.
From Verif Require Import Base FloatOps FloatR Model_Hash Model_Features Model_Weights Model_Interactions Model_Types Model_Explore
  Model_Coin Model_Stack Model_Factory Spec_Coin Spec_Explore Spec_Reductions Spec_Metrics Spec_OffPolicy Spec_Unbiased
  Proof_StackProps Proof_CoinR Proof_Unbiased Proof_UnbiasedEx.
Import ListNotations.
Open Scope R_scope.

(** mtr.  Whatever is drawn, the child is trained on exactly [mtr_examples] of the log: the drawn actions only.  Yet
    for every predictor the expected loss on them is its loss on all actions of all rounds, drawn or not, each round
    scaled by events/actions.  Later rounds and probabilities may depend on the draws in any way. *)
Theorem C83_mtr : forall dbg n w (ch0 : red RF n) g, covered true 0 0 g ->
  (forall l r, log_of g l -> taught dbg ((w, KCbAdf Mtr 0 0, ch0) : red RF (S n)) l r ->
     exists k ch, r = (w, k, ch) /\ fed dbg ch0 (mtr_examples 0 0 l) ch) /\
  (forall P, mean_over g (fun l => weighted_loss P (mtr_examples 0 0 l)) = full_loss seen_mtr per_action true_costs P 0 0 g).
Proof. exact mtr_main. Qed.
Print Assumptions C83_mtr.

(** ips.  The child is trained on all actions, with made up costs.  The expected loss on them differs between two
    predictors by exactly what their losses on the true costs differ by. *)
Theorem C83_ips : forall dbg n w x y (ch0 : red RF n) sh g, covered sh 0 0 g ->
  (forall l r, log_of g l -> taught dbg ((w, KCbAdf Ips x y, ch0) : red RF (S n)) l r ->
     exists k ch, r = (w, k, ch) /\ fed dbg ch0 (ips_examples l) ch) /\
  (forall P Q, mean_over g (fun l => weighted_loss P (ips_examples l)) - mean_over g (fun l => weighted_loss Q (ips_examples l)) =
    full_loss seen_ips constant true_costs P 0 0 g - full_loss seen_ips constant true_costs Q 0 0 g).
Proof. exact ips_main. Qed.
Print Assumptions C83_ips.

(** The greedy and softmax explorers and the Debug layer hand the log down as it is, so that the same holds below them. *)
Theorem C83_explorers : forall dbg n w k (r0 : red RF n) l r,
  match k with KGreedy _ | KSoftmax _ _ _ | KDebug => True | _ => False end ->
  taught dbg ((w, k, r0) : red RF (S n)) l r -> exists r', r = (w, k, r') /\ taught dbg r0 l r'.
Proof. exact explorer_main. Qed.
Print Assumptions C83_explorers.

(** SquareCB over mtr.  The probabilities are dropped: each action counts with the probability that it is drawn. *)
Theorem C83_squarecb_mtr : forall dbg n w1 ue gs ge c w (ch0 : red RF n) g, covered true 0 0 g ->
  (forall l r, log_of g l -> taught dbg ((w1, KSquareCb ue gs ge c, ((w, KCbAdf Mtr 0 0, ch0) : red RF (S n))) : red RF (S (S n))) l r ->
     exists k1 k ch, r = (w1, k1, (w, k, ch)) /\ fed dbg ch0 (mtr_examples 0 0 (map certain l)) ch) /\
  (forall P, mean_over g (fun l => weighted_loss P (mtr_examples 0 0 (map certain l))) = drawn_loss P 0 0 g).
Proof. exact squarecb_mtr_main. Qed.
Print Assumptions C83_squarecb_mtr.

(** SquareCB over ips (which it accepts behind a Debug layer, see C51).  The child is trained towards each cost times the probability that its action is drawn. *)
Theorem C83_squarecb_ips : forall dbg n w1 ue gs ge c w2 w x y (ch0 : red RF n) sh g, covered sh 0 0 g ->
  (forall l r, log_of g l ->
     taught dbg ((w1, KSquareCb ue gs ge c, ((w2, KDebug, ((w, KCbAdf Ips x y, ch0) : red RF (S n))) : red RF (S (S n)))) : red RF (S (S (S n)))) l r ->
     exists k1 k ch, r = (w1, k1, (w2, KDebug, (w, k, ch))) /\ fed dbg ch0 (ips_examples (map certain l)) ch) /\
  (forall P Q, mean_over g (fun l => weighted_loss P (ips_examples (map certain l))) - mean_over g (fun l => weighted_loss Q (ips_examples (map certain l))) =
    full_loss seen_ips constant shrunk_costs P 0 0 g - full_loss seen_ips constant shrunk_costs Q 0 0 g).
Proof. exact squarecb_ips_main. Qed.
Print Assumptions C83_squarecb_ips.

(** So SquareCB over ips does not fit the costs: here a predictor that is off by one half on every action has a
    smaller expected training loss than the predictor that gets every cost right. *)
Theorem C83_squarecb_ips_fits_costs_refuted : covered true 0 0 ub_half /\
  full_loss seen_ips constant true_costs (fun _ => 1) 0 0 ub_half = 0 /\
  0 < full_loss seen_ips constant true_costs (fun _ => / 2) 0 0 ub_half /\
  mean_over ub_half (fun l => weighted_loss (fun _ => / 2) (ips_examples (map certain l))) <
  mean_over ub_half (fun l => weighted_loss (fun _ => 1) (ips_examples (map certain l))).
Proof. exact ub_refuted. Qed.
Print Assumptions C83_squarecb_ips_fits_costs_refuted.

(** Logs of any number of rounds with two actions, any costs and any probability meet the hypotheses, and a new
    workspace can learn all of them. *)
Example C83_example : forall (p : R) (cost : N -> R) (t : nat), 0 < p < 1 -> (2 * N.of_nat t < u64_mod)%N ->
  covered true 0 0 (ub_game p cost t) /\
  exists w (ch : red RF 0),
    ws_new ex_hash false gc16n (CCbAdf Mtr (CCoin (@coin_default RF))) = Ok (existT (red RF) 1%nat (w, KCbAdf Mtr 0 0, ch)) /\
    forall l, log_of (ub_game p cost t) l -> exists r, taught false ((w, KCbAdf Mtr 0 0, ch) : red RF 1) l r.
Proof. exact ub_example. Qed.

(** Such a stack with SquareCB over ips can be created. *)
Example C83_squarecb_example : forall ue gs ge : R, exists w1 w2 w (ch : red RF 0),
  ws_new ex_hash false gc16n (CSquareCb ue gs ge (CDebug (CCbAdf Ips (CCoin (@coin_default RF))))) =
    Ok (existT (red RF) 3%nat (w1, KSquareCb ue gs ge 0, ((w2, KDebug, ((w, KCbAdf Ips 0 0, ch) : red RF 1)) : red RF 2))).
Proof. exact ub_sq_new. Qed.
