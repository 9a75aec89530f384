(** C23, C47, C48: property theorems about contextual bandit and binary reductions. *)
From Coq Require Import List NArith ZArith Bool Lia Reals SpecFloat.
From Verif Require Import Base FloatOps FloatR FloatB32 Model_Hash Model_Features Model_Weights Model_Loss Model_Types Model_Explore
  Model_Coin Model_Stack Model_Factory Spec_Features Spec_Stack Spec_Reductions Proof_StackProps Proof_Reductions Proof_ReductionsR.
Import ListNotations.

(** C23.  One score per action, numbered 0, 1, ... in order; each is the raw prediction
    of the child on the action's features followed by the shared ones. *)
Theorem C23_scores :
  forall (O : FOps) (dbg : bool) (n : nat) w ty x y (ch : red O n) shared actions p f',
  plain (FtsCb shared actions) ->
  ws_predict dbg ((w, KCbAdf ty x y, ch) : red O (S n)) (FtsCb shared actions) = Ok (p, f') ->
  exists l, p = PrScores l /\ numbered l /\ length l = length actions /\
    forall i a, nth_error actions i = Some a -> exists a1 v raw g,
      combines a shared a1 /\ ws_predict dbg ch (FtsSimple a1) = Ok (PrScalar v raw, g) /\
      nth_error l i = Some (N.of_nat i, raw).
Proof. exact @cb_scores. Qed.
Print Assumptions C23_scores.

(** C23.  The score of an action does not depend on the other actions or its position. *)
Theorem C23_independent :
  forall (O : FOps) (dbg : bool) (n : nat) w ty x y (ch : red O n) shared acts1 acts2 l1 l2 f1 f2,
  ws_predict dbg ((w, KCbAdf ty x y, ch) : red O (S n)) (FtsCb shared acts1) = Ok (PrScores l1, f1) ->
  ws_predict dbg ((w, KCbAdf ty x y, ch) : red O (S n)) (FtsCb shared acts2) = Ok (PrScores l2, f2) ->
  forall i j a, nth_error acts1 i = Some a -> nth_error acts2 j = Some a ->
  exists s, nth_error l1 i = Some (N.of_nat i, s) /\ nth_error l2 j = Some (N.of_nat j, s).
Proof. exact @cb_independent. Qed.
Print Assumptions C23_independent.

Example C23_example : plain ex_fts /\ exists w (ch : red BF0 0) r1 f1 p f2,
  ws_new ex_hash false ex_gc ex_ips_cfg = Ok (existT (red BF0) 1%nat (w, KCbAdf Ips 0 0, ch)) /\
  ws_learn false ((w, KCbAdf Ips 0 0, ch) : red BF0 1) ex_fts ex_lb = Ok (r1, f1) /\
  ws_predict false ((w, KCbAdf Ips 0 0, ch) : red BF0 1) ex_fts = Ok (p, f2).
Proof. split; [exact ex_plain|exact ex_ips]. Qed.

(** C47.  True exactly when the child's prediction is greater than zero. *)
Theorem C47_sign :
  forall (O : FOps) (dbg : bool) (n : nat) w (ch : red O n) f p f',
  ws_predict dbg ((w, KBinary, ch) : red O (S n)) f = Ok (p, f') ->
  exists v raw, ws_predict dbg ch f = Ok (PrScalar v raw, f') /\ p = PrBinary (f_gtb v f0).
Proof. exact @binary_predict. Qed.
Print Assumptions C47_sign.

(** C47.  Labels are learned as +1 and -1 with weight 1. *)
Theorem C47_labels :
  forall (O : FOps) (dbg : bool) (n : nat) w (ch : red O n) f b r' f',
  ws_learn dbg ((w, KBinary, ch) : red O (S n)) f (LbBinary b) = Ok (r', f') ->
  exists ch', ws_learn dbg ch f (LbSimple (if b then f1 else f_neg O f1) f1) = Ok (ch', f') /\ r' = (w, KBinary, ch').
Proof. exact @binary_learn. Qed.
Print Assumptions C47_labels.

Example C47_example : exists w (ch : red BF0 0) r1 f1 f2,
  ws_new ex_hash false ex_gc ex_bin_cfg = Ok (existT (red BF0) 1%nat (w, KBinary, ch)) /\
  ws_learn false ((w, KBinary, ch) : red BF0 1) (FtsSimple (ex_store 1%nat)) (LbBinary true) = Ok (r1, f1) /\
  ws_predict false r1 (FtsSimple (ex_store 1%nat)) = Ok (PrBinary true, f2).
Proof. exact ex_bin. Qed.

(** C47.  With the logistic link in the regressor every example is predicted true
    (exact arithmetic) ... *)
Theorem C47_logistic_always_true :
  forall (dbg : bool) (n : nat) w (ch : red RF n) f p f',
  cc_link (co_cfg (bottom n ch)) = LinkLogistic ->
  ws_predict dbg ((w, KBinary, ch) : red RF (S n)) f = Ok (p, f') -> p = PrBinary true.
Proof. exact logistic_always_true. Qed.
Print Assumptions C47_logistic_always_true.

Example C47_logistic_example :
  cc_link (co_cfg (bottom 1 ex_log)) = LinkLogistic /\ exists p f', ws_predict false ex_log (FtsSimple []) = Ok (p, f').
Proof. split; [reflexivity|exact ex_log_ok]. Qed.

(** ... unless exp overflows in binary32, where the link value is 0. *)
Theorem C47_link_underflow : forall bexp bln bpow (v : spec_float),
  bexp (SFopp v) = S754_infinity false ->
  @f_gtb (BF bexp bln bpow) (@link_fun (BF bexp bln bpow) LinkLogistic v) f0 = false.
Proof. exact link_underflow. Qed.
Print Assumptions C47_link_underflow.

(** C48.  Under ips a learn call is one learn call of the child per action, in order,
    with label cost/probability for the labelled action and 0 for the others. *)
Theorem C48_ips :
  forall (O : FOps) (dbg : bool) (n : nat) w x y (ch : red O n) shared actions action cost prob r' f',
  ws_learn dbg ((w, KCbAdf Ips x y, ch) : red O (S n)) (FtsCb shared actions) (LbCb action cost prob) = Ok (r', f') ->
  exists ch', r' = (w, KCbAdf Ips x y, ch') /\ ips_seq dbg action cost prob shared 0 actions ch ch'.
Proof. exact @cb_ips_learn. Qed.
Print Assumptions C48_ips.

(** C48.  Under mtr, after any training history on a new stack, a learn call is one
    learn call of the child on the labelled action with importance weight
    (1/probability) * (events / actions), both counted including this example. *)
Theorem C48_mtr :
  forall (O : FOps) (dbg : bool) (n : nat) w (ch0 : red O n) h r f lb r' f',
  trained dbg ((w, KCbAdf Mtr 0 0, ch0) : red O (S n)) h r ->
  (num_actions f + fold_right N.add 0 h < u64_mod)%N -> (N.of_nat (length h) + 1 < u64_mod)%N ->
  ws_learn dbg r f lb = Ok (r', f') ->
  exists k k' ch ch' s acts action cost prob a s1 g, r = (w, k, ch) /\ r' = (w, k', ch') /\
    f = FtsCb (Some s) acts /\ lb = LbCb action cost prob /\ nth_error acts (N.to_nat action) = Some a /\
    sf_append s a = Ok s1 /\
    ws_learn dbg ch (FtsSimple s1) (LbSimple cost (f_mul O (f_div O f1 prob)
      (f_div O (f_of_N (N.of_nat (length h) + 1)%N) (f_of_N (num_actions f + fold_right N.add 0 h)%N)))) = Ok (ch', g).
Proof. exact @cb_mtr_learn. Qed.
Print Assumptions C48_mtr.

Example C48_example : exists w (ch : red BF0 0) r1 r2 f2,
  trained false ((w, KCbAdf Mtr 0 0, ch) : red BF0 1) [2%N] r1 /\
  (num_actions ex_fts + fold_right N.add 0 [2%N] < u64_mod)%N /\
  ws_learn false r1 ex_fts ex_lb = Ok (r2, f2).
Proof.
  destruct ex_mtr as (w & ch & r1 & g1 & r2 & g2 & _ & A & B). exists w, ch, r1, r2, g2.
  split; [|split; [vm_compute; reflexivity|exact B]]. exact (tr_learn _ _ _ _ _ _ _ _ (tr_refl _ _) A).
Qed.
