(** C78: property theorems about the exploration policies in single precision. *)
From Coq Require Import List NArith ZArith Bool Lia Reals Lra SpecFloat.
From Verif Require Import Base FloatOps FloatB32 Model_Features Model_Types Model_Explore Model_Coin Model_Stack Model_Factory
  Spec_Explore Spec_FloatReal Proof_ReductionsR Proof_StackProps Proof_FloatPolicy.
Import ListNotations.
Open Scope R_scope.

(** C78.  The minimum probability in single precision, any list of up to 2^20 numbers in
    any order, sum at most 3/2, any rate in [0,1]: the call succeeds, nothing becomes
    negative or infinite, the total is 1 up to n * 2^-18 (and the list is returned as it is
    if the rate is zero), who counts gets rate/n up to rounding, who does not count keeps
    their value. *)
Theorem C78_min_prob : forall (bexp bln : b32 -> b32) (bpow : b32 -> b32 -> b32) (dbg : bool) (eps : b32) (consider : bool) (els : list (N * b32)),
  INR (length els) <= 1048576 -> rate eps -> fnonneg els -> fsum els <= 3 / 2 ->
  (exists a p, In (a, p) els /\ counting consider (bval p)) ->
  exists r, @enforce_min_prob (BF bexp bln bpow) dbg eps consider els = Ok r /\ map fst r = map fst els /\ fnonneg r /\
    (bval eps = 0 -> r = els) /\ (0 < bval eps -> Rabs (fsum r - 1) <= INR (length els) * p2 (-18)) /\
    (forall n, ncount consider (vals els) n -> forall i a p q, nth_error els i = Some (a, p) -> nth_error r i = Some (a, q) ->
       (counting consider (bval p) -> 0 < bval eps -> bval eps / INR n * (1 - p2 (-24)) - p2 (-150) <= bval q) /\
       (~ counting consider (bval p) -> q = p)).
Proof. exact min_prob_float. Qed.
Print Assumptions C78_min_prob.

Example C78_min_prob_example : INR (length ex_els) <= 1048576 /\ rate half /\ fnonneg ex_els /\ fsum ex_els <= 3 / 2 /\
  (exists a p, In (a, p) ex_els /\ counting false (bval p)) /\ ncount false (vals ex_els) 2.
Proof. exact ex_els_ok. Qed.

(** C78.  Epsilon greedy in single precision, any scores (NaN and infinities included):
    a distribution up to 2^-21, whatever the number of actions up to 2^20; every action
    has epsilon/n up to rounding. *)
Theorem C78_greedy : forall (bexp bln : b32 -> b32) (bpow : b32 -> b32 -> b32) (eps : b32) (scores : list (N * b32)),
  scores <> [] -> INR (length scores) <= 1048576 -> rate eps ->
  exists r, @greedy_probs (BF bexp bln bpow) eps scores = Ok r /\ map fst r = map fst scores /\ fdist r (p2 (-21)) /\
    (forall a p, In (a, p) r -> bval eps / INR (length scores) * (1 - p2 (-22)) - p2 (-148) <= bval p).
Proof. exact greedy_policy. Qed.
Print Assumptions C78_greedy.

(** C78.  SquareCB in single precision, up to 3000 actions with any finite scores: a
    distribution up to n * 2^-18, even where gamma times a difference of scores overflows. *)
Theorem C78_squarecb : forall (bexp bln : b32 -> b32) (bpow : b32 -> b32 -> b32) (dbg : bool) (ueps gamma : b32) (scores : list (N * b32)),
  scores <> [] -> INR (length scores) <= 3000 -> NoDup (map fst scores) -> fnumbers scores -> factor gamma scores -> rate ueps ->
  exists r, @squarecb_probs (BF bexp bln bpow) dbg ueps gamma scores = Ok r /\ map fst r = map fst scores /\
    fdist r (INR (length scores) * p2 (-18)).
Proof. exact square_policy. Qed.
Print Assumptions C78_squarecb.

(** C78.  Without uniform exploration the total is 1 up to n * 2^-23 for up to 2^20
    actions ... *)
Theorem C78_squarecb_sum : forall (bexp bln : b32 -> b32) (bpow : b32 -> b32 -> b32) (dbg : bool) (ueps gamma : b32) (scores : list (N * b32)),
  scores <> [] -> INR (length scores) <= 1048576 -> NoDup (map fst scores) -> fnumbers scores -> factor gamma scores ->
  bnum ueps -> bval ueps = 0 ->
  exists r, @squarecb_probs (BF bexp bln bpow) dbg ueps gamma scores = Ok r /\ map fst r = map fst scores /\
    fnumbers r /\ Rabs (fsum r - 1) <= INR (length scores) * p2 (-23).
Proof. exact square_sum. Qed.
Print Assumptions C78_squarecb_sum.

(** C78.  ... but some bound like 3000 is needed for it to be a distribution: with 8283
    actions of equal score the chosen action, which gets one minus the rounded sum of the
    others, has a negative probability. *)
Theorem C78_squarecb_many_actions_refuted : forall (bexp bln : b32 -> b32) (bpow : b32 -> b32 -> b32),
  exists (gamma : b32) (scores : list (N * b32)) r a q,
  fnumbers scores /\ NoDup (map fst scores) /\ factor gamma scores /\ length scores = N.to_nat 8283 /\
  (forall dbg, @squarecb_probs (BF bexp bln bpow) dbg (S754_zero false) gamma scores = Ok r) /\ In (a, q) r /\ bval q < 0.
Proof. exact square_negative. Qed.
Print Assumptions C78_squarecb_many_actions_refuted.

(** C78.  Softmax in single precision, with any exponential function that is 1 at zero and
    within [0,1] below: a distribution up to n * 2^-18 for up to 2^20 actions with any
    finite scores. *)
Theorem C78_softmax : forall (bexp bln : b32 -> b32) (bpow : b32 -> b32 -> b32) (dbg : bool) (ueps la : b32) (scores : list (N * b32)),
  exp_unit bexp -> scores <> [] -> INR (length scores) <= 1048576 -> fnumbers scores -> factor la scores -> rate ueps ->
  exists r, @softmax_probs (BF bexp bln bpow) dbg ueps la scores = Ok r /\ map fst r = map fst scores /\
    fdist r (INR (length scores) * p2 (-18)).
Proof. exact soft_policy. Qed.
Print Assumptions C78_softmax.

Example C78_policies_example : ex_scores <> [] /\ INR (length ex_scores) <= 3000 /\ NoDup (map fst ex_scores) /\
  fnumbers ex_scores /\ factor (b_of_Z 10) ex_scores /\ rate half /\ exp_unit exp_half.
Proof. exact ex_scores_ok. Qed.

(** C78.  Whole stacks, release build: if the child predicts finite scores then a stack
    with an exploration reduction on top predicts a distribution over the same actions. *)
Theorem C78_stack : forall (bexp bln : b32 -> b32) (bpow : b32 -> b32 -> b32) (n : nat) w
    (k : kind (BF bexp bln bpow)) (ch : red (BF bexp bln bpow) n) f f' (sc : list (N * b32)),
  ws_predict false ch f = Ok (@PrScores (BF bexp bln bpow) sc, f') -> sc <> [] -> INR (length sc) <= 3000 ->
  match k with
  | KGreedy eps => rate eps
  | KSoftmax ueps la _ => rate ueps /\ factor la sc /\ fnumbers sc /\ exp_unit bexp
  | KSquareCb ueps gs ge counter => rate ueps /\ factor (@squarecb_gamma (BF bexp bln bpow) gs ge counter) sc /\ fnumbers sc
  | _ => False
  end ->
  exists r : list (N * b32), ws_predict false ((w, k, ch) : red (BF bexp bln bpow) (S n)) f = Ok (@PrProbs (BF bexp bln bpow) r, f') /\
    map fst r = map fst sc /\ fdist r (INR (length sc) * p2 (-18)).
Proof. exact stack_policy. Qed.
Print Assumptions C78_stack.

Example C78_stack_example : exists w eps (ch : red BF0 2) sc f',
  ws_new ex_hash false ex_gc ex_cfg = Ok (existT (red BF0) 3%nat (w, KGreedy eps, ch)) /\
  ws_predict false ch ex_fts = Ok (@PrScores BF0 sc, f') /\ sc <> [] /\ INR (length sc) <= 3000 /\ rate eps.
Proof. exact ex_stack. Qed.

(** C78.  The minimum probability of the exact arithmetic (C16, C17) does not survive
    rounding: an action whose weight is rounded to zero stays at zero, whatever the rate
    of uniform exploration. *)
Theorem C78_softmax_floor_refuted : forall (bexp bln : b32 -> b32) (bpow : b32 -> b32 -> b32) (dbg : bool),
  (forall s, bexp (S754_zero s) = b_of_Z 1) -> bexp (b_of_Z (-1000)) = S754_zero false ->
  @softmax_probs (BF bexp bln bpow) dbg half (b_of_Z 1) [(0%N, S754_zero false); (1%N, b_of_Z 1000)]
  = Ok [(0%N, b_of_Z 1); (1%N, S754_zero false)].
Proof. exact soft_no_floor. Qed.
Print Assumptions C78_softmax_floor_refuted.

Theorem C78_squarecb_floor_refuted : forall (bexp bln : b32 -> b32) (bpow : b32 -> b32 -> b32) (dbg : bool),
  @squarecb_probs (BF bexp bln bpow) dbg half huge [(0%N, S754_zero false); (1%N, huge)]
  = Ok [(0%N, b_of_Z 1); (1%N, S754_zero false)].
Proof. exact square_no_floor. Qed.
Print Assumptions C78_squarecb_floor_refuted.

(** C78.  With gamma zero and scores so far apart that their difference overflows there
    is no distribution: NaN without uniform exploration, a panic with it. *)
Theorem C78_overflow_refuted : forall (bexp bln : b32 -> b32) (bpow : b32 -> b32 -> b32) (dbg : bool),
  @squarecb_probs (BF bexp bln bpow) dbg (S754_zero false) (S754_zero false) [(0%N, SFopp top); (1%N, top)]
    = Ok [(0%N, S754_nan); (1%N, S754_nan)] /\
  @squarecb_probs (BF bexp bln bpow) dbg half (S754_zero false) [(0%N, SFopp top); (1%N, top)] = Pn PNaN.
Proof. exact square_overflow. Qed.
Print Assumptions C78_overflow_refuted.
