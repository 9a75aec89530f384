(** C50: property theorems about what exploration layers hand on when learning. *)
From Coq Require Import List NArith Bool.
From Verif Require Import Base FloatOps FloatB32 Model_Hash Model_Features Model_Weights Model_Loss Model_Interactions Model_Types Model_Explore Model_Coin
  Model_Stack Model_Factory Spec_Delegate Proof_StackProps Proof_Delegate.
Import ListNotations.
Open Scope N_scope.

(** C50.  Learning through an epsilon-greedy or softmax layer is learning with the child,
    with the same outcome in every respect, and leaves the layer as it was. *)
Theorem C50_learn : forall (O : FOps) dbg n w (k : kind O) (ch : red O n) f lb, plain_explorer k ->
  ws_learn dbg ((w, k, ch) : red O (S n)) f lb =
  let* x := ws_learn dbg ch f lb in Ok ((w, k, fst x) : red O (S n), snd x).
Proof. exact @plain_learn. Qed.
Print Assumptions C50_learn.

(** So what is learned does not depend on the exploration settings. *)
Theorem C50_policy_irrelevant : forall (O : FOps) dbg n w1 w2 (k1 k2 : kind O) h (ch : red O n) r,
  plain_explorer k1 -> plain_explorer k2 -> learn_all dbg ((w1, k1, ch) : red O (S n)) h = Ok r ->
  exists ch', r = (w1, k1, ch') /\ learn_all dbg ch h = Ok ch' /\ learn_all dbg ((w2, k2, ch) : red O (S n)) h = Ok (w2, k2, ch').
Proof. exact @policy_irrelevant. Qed.
Print Assumptions C50_policy_irrelevant.

(** C50.  SquareCb hands labels on with probability 1 and counts the examples. *)
Theorem C50_squarecb : forall (O : FOps) dbg n w ue gs ge h t (ch : red O n), t + N.of_nat (length h) < u64_mod ->
  (forall f lb, In (f, lb) h -> exists a c p, lb = LbCb a c p) ->
  learn_all dbg ((w, KSquareCb ue gs ge t, ch) : red O (S n)) h =
  let* c := learn_all dbg ch (map (fun e => (fst e, sure (snd e))) h) in
  Ok ((w, KSquareCb ue gs ge (t + N.of_nat (length h)), c) : red O (S n)).
Proof. exact @square_learn_all. Qed.
Print Assumptions C50_squarecb.

(** C50.  After training a new SquareCb layer on t examples, it predicts with
    gamma = scale * t^exponent. *)
Theorem C50_gamma : forall (O : FOps) dbg n w ue gs ge h (ch : red O n) r f p f',
  N.of_nat (length h) < u64_mod -> learn_all dbg ((w, KSquareCb ue gs ge 0, ch) : red O (S n)) h = Ok r ->
  ws_predict dbg r f = Ok (p, f') ->
  exists ch' scores probs, learn_all dbg ch (map (fun e => (fst e, sure (snd e))) h) = Ok ch' /\
    r = (w, KSquareCb ue gs ge (N.of_nat (length h)), ch') /\
    ws_predict dbg ch' f = Ok (PrScores scores, f') /\ p = PrProbs probs /\
    squarecb_probs dbg ue (f_mul O gs (f_pow O (f_of_N (N.of_nat (length h))) ge)) scores = Ok probs.
Proof. exact @square_gamma. Qed.
Print Assumptions C50_gamma.

(** C50.  predict_then_learn of the three layers. *)
Theorem C50_both : forall (O : FOps) dbg n w (k : kind O) (ch : red O n) f lb p r' f',
  match k with KGreedy _ | KSoftmax _ _ _ | KSquareCb _ _ _ _ => True | _ => False end ->
  ws_ptl dbg ((w, k, ch) : red O (S n)) f lb = Ok (p, r', f') ->
  exists scores k' ch' f1, ws_predict dbg ch f = Ok (PrScores scores, f1) /\
    ws_learn dbg ch f1 (match k with KSquareCb _ _ _ _ => sure lb | _ => lb end) = Ok (ch', f') /\ r' = (w, k', ch').
Proof. exact @ptl_layer. Qed.
Print Assumptions C50_both.

(** two training examples on a SquareCb stack *)
Example C50_example : ex_sq_trained = true /\ N.of_nat (length [(ex_fts, ex_lb); (ex_fts, ex_lb)]) < u64_mod /\
  (forall f lb, In (f, lb) [(ex_fts, ex_lb); (ex_fts, ex_lb)] -> exists a c p, lb = LbCb a c p) /\
  plain_explorer (KGreedy (@f1 BF0)) /\ plain_explorer (KSoftmax (@f1 BF0) (@f1 BF0) 0).
Proof.
  split; [vm_compute; reflexivity|]. split; [reflexivity|]. split; [|split; exact Logic.I].
  intros f lb [I|[I|[]]]; inversion I; subst; unfold ex_lb; eauto.
Qed.
