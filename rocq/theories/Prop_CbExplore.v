(** C15, C16, C17: property theorems about exploration policies (exact arithmetic). *)
From Coq Require Import List NArith ZArith Bool Lia Reals Lra SpecFloat.
From Verif Require Import Base FloatOps FloatR FloatB32 Model_Hash Model_Features Model_Weights Model_Types Model_Explore
  Model_Coin Model_Stack Model_Factory Spec_Explore Spec_CbExplore Spec_Stack Spec_Reductions Proof_CbExplore Proof_StackProps
  Proof_Reductions Proof_ReductionsR.
Import ListNotations.
Open Scope R_scope.

(** C15.  The first action of minimal cost gets epsilon/n + 1 - epsilon, the others
    epsilon/n; same actions in the same order; total 1; nothing negative. *)
Theorem C15_greedy : forall (eps : R) (scores : list (N * R)), scores <> [] ->
  exists i (r : list (N * R)), first_min scores i /\ @greedy_probs RF eps scores = Ok r /\ length r = length scores /\
    (forall j a c, nth_error scores j = Some (a, c) ->
       nth_error r j = Some (a, eps / INR (length scores) + if Nat.eqb j i then 1 - eps else 0)) /\
    total r = 1 /\ (0 <= eps <= 1 -> nonneg r).
Proof. exact greedy_spec. Qed.
Print Assumptions C15_greedy.

Example C15_example : first_min [(0%N, 3); (1%N, 1); (2%N, 1)] 1.
Proof.
  exists 1%N, 1. split; [reflexivity|]. intros [|[|[|j]]] b d H; simpl in H; inversion H; subst; split; try lra; try lia.
  destruct j; discriminate.
Qed.

(** C16.  A probability distribution over the same actions; every action keeps the
    floor; the cheapest has the most; a cheaper action never has less.  The last
    hypothesis keeps powf(counter, exponent) finite. *)
Theorem C16_squarecb : forall (dbg : bool) (ueps gs ge : R) (counter : N) (scores : list (N * R)),
  0 <= gs -> (0 < counter)%N \/ 0 <= ge -> scores <> [] -> NoDup (map fst scores) -> 0 <= ueps <= 1 ->
  exists bi (r : list (N * R)), first_min scores bi /\
    @squarecb_probs RF dbg ueps (@squarecb_gamma RF gs ge counter) scores = Ok r /\ map fst r = map fst scores /\
    nonneg r /\ total r = 1 /\
    (forall j a q, nth_error r j = Some (a, q) -> ueps / INR (length scores) <= q /\ 0 < q) /\
    (forall j a q b q', nth_error r bi = Some (b, q') -> nth_error r j = Some (a, q) -> q <= q') /\
    (forall i j a c q b d q', nth_error scores i = Some (a, c) -> nth_error r i = Some (a, q) ->
       nth_error scores j = Some (b, d) -> nth_error r j = Some (b, q') -> c < d -> q' <= q).
Proof. exact squarecb_spec. Qed.
Print Assumptions C16_squarecb.

Example C16_example : 0 <= 10 /\ ((0 < 0)%N \/ 0 <= 1 / 2) /\ [(0%N, 3); (1%N, 1)] <> [] /\
  NoDup (map fst [(0%N, 3); (1%N, 1)]) /\ 0 <= 1 / 10 <= 1.
Proof.
  repeat split; try lra; try discriminate. simpl. repeat constructor; simpl; intuition discriminate.
Qed.

(** C16 without that hypothesis is false: configurations with a negative gamma exponent
    are accepted, powf(0, negative) is infinite, and the very first prediction with
    equal scores has NaN probabilities. *)
Theorem C16_negative_exponent_refuted : forall (dbg : bool) bexp bln bpow (ge : spec_float),
  bpow (@f_of_N (BF bexp bln bpow) 0) ge = S754_infinity false ->
  @squarecb_probs (BF bexp bln bpow) dbg f0 (@squarecb_gamma (BF bexp bln bpow) f1 ge 0) [(0%N, f1); (1%N, f1)]
  = Ok [(0%N, S754_nan); (1%N, S754_nan)].
Proof. exact negative_exponent. Qed.
Print Assumptions C16_negative_exponent_refuted.

(** C17.  Positive, total 1, at least the floor, exactly the softmax weights without
    uniform exploration, and not increasing in cost if lambda >= 0. *)
Theorem C17_softmax : forall (dbg : bool) (ueps la : R) (scores : list (N * R)), scores <> [] -> 0 <= ueps <= 1 ->
  exists r : list (N * R), @softmax_probs RF dbg ueps la scores = Ok r /\ map fst r = map fst scores /\ total r = 1 /\
    (forall i a c q, nth_error scores i = Some (a, c) -> nth_error r i = Some (a, q) ->
       0 < q /\ ueps / INR (length scores) <= q /\ (ueps = 0 -> q = exp (- la * c) / sum_exp la scores)) /\
    (forall i j a c q b d q', nth_error scores i = Some (a, c) -> nth_error r i = Some (a, q) ->
       nth_error scores j = Some (b, d) -> nth_error r j = Some (b, q') -> 0 <= la -> c <= d -> q' <= q).
Proof. exact softmax_main. Qed.
Print Assumptions C17_softmax.

(** C17.  Adding the same amount to every cost changes nothing. *)
Theorem C17_shift_invariant : forall (dbg : bool) (ueps la k : R) (scores : list (N * R)),
  scores <> [] -> 0 <= ueps <= 1 ->
  @softmax_probs RF dbg ueps la (map (fun e : N * R => (fst e, snd e + k)) scores) = @softmax_probs RF dbg ueps la scores.
Proof. exact softmax_shift. Qed.
Print Assumptions C17_shift_invariant.

Example C17_example : [(0%N, 3); (1%N, 1)] <> [] /\ 0 <= 1 / 2 <= 1.
Proof. split; [discriminate|lra]. Qed.

(** C15, C16, C17.  What a stack with an exploration reduction on top predicts is the
    policy applied to the scores its child predicts, which are numbered 0, 1, 2, ... *)
Theorem C15_prediction_is_policy :
  forall (O : FOps) (dbg : bool) (n : nat) w (k : kind O) (ch : red O n) f p f',
  match k with KGreedy _ | KSoftmax _ _ _ | KSquareCb _ _ _ _ => True | _ => False end ->
  ws_predict dbg ((w, k, ch) : red O (S n)) f = Ok (p, f') ->
  exists scores probs, ws_predict dbg ch f = Ok (PrScores scores, f') /\ numbered scores /\ NoDup (map fst scores) /\
    p = PrProbs probs /\
    match k with
    | KGreedy eps => greedy_probs eps scores = Ok probs
    | KSoftmax ueps la _ => softmax_probs dbg ueps la scores = Ok probs
    | KSquareCb ueps gs ge counter => squarecb_probs dbg ueps (squarecb_gamma gs ge counter) scores = Ok probs
    | _ => False
    end.
Proof. exact @explore_policy. Qed.
Print Assumptions C15_prediction_is_policy.

Example C15_stack_example : exists w eps (ch : red BF0 2) p f',
  ws_new ex_hash false ex_gc ex_cfg = Ok (existT (red BF0) 3%nat (w, KGreedy eps, ch)) /\
  ws_predict false ((w, KGreedy eps, ch) : red BF0 3) ex_fts = Ok (p, f').
Proof. exact ex_explore. Qed.
