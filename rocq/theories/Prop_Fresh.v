(** C101: a workspace that has not learned anything, in single precision, whatever the features are;
    their values may be infinite or not a number. *)
From Coq Require Import List NArith ZArith Bool.
From Coq Require Import Floats.SpecFloat.
From Verif Require Import Base FloatOps FloatB32 Model_Hash Model_Features Model_Weights Model_Interactions Model_Types Model_Coin Model_Stack
  Model_Factory Spec_Features Spec_Stack Spec_Alike Spec_Fresh Proof_StackProps Proof_Fresh Proof_FreshEx.
Import ListNotations.

(** C101.  Every raw prediction of a new workspace is +0. *)
Theorem C101_scalar : forall (ex lx : b32 -> b32) (px : b32 -> b32 -> b32) H dbg gc (c : rcfg (BF ex lx px)) R0 f y v f',
  ws_new H dbg gc c = Ok R0 -> ws_predict dbg (projT2 R0) f = Ok (PrScalar y v, f') -> v = S754_zero false.
Proof. exact fresh_scalar. Qed.
Print Assumptions C101_scalar.

(** C101.  With the identity link the prediction is +0 too, and a binary classifier answers false. *)
Theorem C101_identity : forall (ex lx : b32 -> b32) (px : b32 -> b32 -> b32) H dbg gc (c : rcfg (BF ex lx px)) R0 f p f',
  ws_new H dbg gc c = Ok R0 -> link_of c = LinkIdentity -> ws_predict dbg (projT2 R0) f = Ok (p, f') ->
  match p with PrScalar y _ => y = S754_zero false | PrBinary b => b = false | _ => True end.
Proof. exact fresh_identity. Qed.
Print Assumptions C101_identity.

(** C101.  With the logistic link the prediction is 1/2 (8388608 / 2^24), and a binary classifier answers true. *)
Theorem C101_logistic : forall (ex lx : b32 -> b32) (px : b32 -> b32 -> b32) H dbg gc (c : rcfg (BF ex lx px)) R0 f p f',
  ws_new H dbg gc c = Ok R0 -> link_of c = LinkLogistic -> ex (S754_zero true) = b_of_Z 1 -> ws_predict dbg (projT2 R0) f = Ok (p, f') ->
  match p with PrScalar y _ => y = S754_finite false 8388608 (-24) | PrBinary b => b = true | _ => True end.
Proof. exact fresh_logistic. Qed.
Print Assumptions C101_logistic.

(** C101.  Every action score is +0. *)
Theorem C101_scores : forall (ex lx : b32 -> b32) (px : b32 -> b32 -> b32) H dbg gc (c : rcfg (BF ex lx px)) R0 s acts sc f',
  ws_new H dbg gc c = Ok R0 -> ws_predict dbg (projT2 R0) (FtsCb s acts) = Ok (PrScores sc, f') -> sc = zeros (length acts).
Proof. exact fresh_scores. Qed.
Print Assumptions C101_scores.

(** C101.  Greedy gives each of the n actions eps / n, and 1 - eps more to the first. *)
Theorem C101_greedy : forall (ex lx : b32 -> b32) (px : b32 -> b32 -> b32) H dbg gc eps (c : rcfg (BF ex lx px)) R0 s acts p f',
  ws_new H dbg gc (CGreedy eps c) = Ok R0 -> ws_predict dbg (projT2 R0) (FtsCb s acts) = Ok (p, f') ->
  p = PrProbs (greedy_start eps (length acts)).
Proof. exact fresh_greedy. Qed.
Print Assumptions C101_greedy.

(** C101.  Softmax gives all actions the same probability, bit for bit. *)
Theorem C101_softmax : forall (ex lx : b32 -> b32) (px : b32 -> b32 -> b32) H dbg gc ueps la (c : rcfg (BF ex lx px)) R0 s acts p f',
  ws_new H dbg gc (CSoftmax ueps la c) = Ok R0 -> ws_predict dbg (projT2 R0) (FtsCb s acts) = Ok (p, f') ->
  exists q, p = PrProbs q /\ forall i j, (i < length acts)%nat -> (j < length acts)%nat -> tied q i j.
Proof. exact fresh_softmax. Qed.
Print Assumptions C101_softmax.

(** C101.  SquareCB gives all actions but the first the same probability. *)
Theorem C101_squarecb : forall (ex lx : b32 -> b32) (px : b32 -> b32 -> b32) H dbg gc ueps gs ge (c : rcfg (BF ex lx px)) R0 s acts p f',
  ws_new H dbg gc (CSquareCb ueps gs ge c) = Ok R0 -> ws_predict dbg (projT2 R0) (FtsCb s acts) = Ok (p, f') ->
  exists q, p = PrProbs q /\ forall i j, (0 < i < length acts)%nat -> (0 < j < length acts)%nat -> tied q i j.
Proof. exact fresh_squarecb. Qed.
Print Assumptions C101_squarecb.

(** C101.  Softmax never separates actions with equal scores, in any arithmetic and after any training. *)
Theorem C101_softmax_ties : forall (O : FOps) dbg n w ueps la x (ch : red O n) f sc g q f', ws_predict dbg ch f = Ok (PrScores sc, g) ->
  ws_predict dbg ((w, KSoftmax ueps la x, ch) : red O (S n)) f = Ok (PrProbs q, f') -> forall i j, tied sc i j -> tied q i j.
Proof. exact @softmax_any. Qed.
Print Assumptions C101_softmax_ties.

(** Features with an infinite value and one that is not a number. *)
Example C101_example_scalar : exists R0 y v g, ws_new ex_hash false fr_gc (CCoin (@coin_default FR)) = Ok R0 /\
  ws_predict false (projT2 R0) (FtsSimple (fr_store 3%nat)) = Ok (PrScalar y v, g).
Proof. exact fr_scalar. Qed.
Example C101_example_scores : exists R0 sc g, ws_new ex_hash false fr_gc fr_cb = Ok R0 /\
  ws_predict false (projT2 R0) (FtsCb fr_ctx fr_acts) = Ok (PrScores sc, g).
Proof. exact fr_scores. Qed.
Example C101_example_policies : forall c, In c [fr_greedy; fr_softmax; fr_square] -> exists R0 q g, ws_new ex_hash false fr_gc c = Ok R0 /\
  ws_predict false (projT2 R0) (FtsCb fr_ctx fr_acts) = Ok (PrProbs q, g) /\ length q = 3%nat.
Proof. exact fr_policy. Qed.
(** In C101_squarecb the first action has to be left out: it gets what is missing to 1, and that is rounded. *)
Example C101_squarecb_first : exists R0 q g, ws_new ex_hash false fr_gc fr_square = Ok R0 /\
  ws_predict false (projT2 R0) (FtsCb fr_ctx fr_acts) = Ok (PrProbs q, g) /\ ~ tied q 0 1.
Proof. exact fr_square_first. Qed.
Example C101_example_ties : exists n w ueps la x (ch : red FR n) sc g q f', ws_predict false ch (FtsCb fr_ctx fr_acts) = Ok (PrScores sc, g) /\
  ws_predict false ((w, KSoftmax ueps la x, ch) : red FR (S n)) (FtsCb fr_ctx fr_acts) = Ok (PrProbs q, f') /\ tied sc 1 2.
Proof. exact fr_ties. Qed.
Example C101_example_links : forall k, link_of (fr_binary k) = k /\ exists R0 b g, ws_new ex_hash false fr_gc (fr_binary k) = Ok R0 /\
  ws_predict false (projT2 R0) (FtsSimple (fr_store 2%nat)) = Ok (PrBinary b, g).
Proof. exact fr_links. Qed.
