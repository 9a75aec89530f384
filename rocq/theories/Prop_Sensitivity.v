(** C79: property theorems about sensitivity. *)
From Coq Require Import List NArith ZArith Bool Reals.
From Verif Require Import Base FloatOps FloatR FloatB32 Model_Hash Model_Features Model_Weights Model_Interactions Model_Types
  Model_Coin Model_Stack Spec_Coin Spec_Reductions Spec_Sensitivity Proof_CoinR Proof_StackProps Proof_Sensitivity.
Import ListNotations.
Open Scope R_scope.

(** C79.  After any training, the sensitivity of any example is the sum over its features
    of sign / ((beta + sqrt(sum of absolute gradients)) / alpha + l2) (exact arithmetic);
    its absolute value is at most the number of features over beta/alpha + l2; further
    training only adds to the sums of gradients, and so does not increase the sensitivity of
    an example without negative values. *)
Theorem C79_training : forall H dbg (cfg : coin_config RF) gc nma n (c0 : coin RF) h k f,
  coin_new H dbg cfg gc nma = Ok c0 -> (0 < nma < 2 ^ 8)%N -> bits_to_max_feature_index dbg (gc_bits gc) = Ok n ->
  Forall (fun e => below n (ex_f e)) (h ++ k) -> below n f ->
  0 < (cc_alpha cfg : R) -> 0 < (cc_beta cfg : R) -> 0 <= (cc_l2 cfg : R) ->
  exists c c' l sts sts' (s s' : R), train dbg h c0 = Ok c /\ train dbg k c = Ok c' /\ coin_feats dbg c0 f = Ok l /\
    coin_sensitivity dbg c f = Ok s /\ coin_sensitivity dbg c' f = Ok s' /\
    Forall2 (fun iv st => stored dbg c (fst iv) = Ok st) l sts /\ Forall2 (fun iv st => stored dbg c' (fst iv) = Ok st) l sts' /\
    s = contributions (cc_alpha cfg) (cc_beta cfg) (cc_l2 cfg) (map snd l) (map gradients sts) /\
    Forall2 (fun st st' => 0 <= gradients st <= gradients st') sts sts' /\
    Rabs s <= INR (length l) * (1 / ((cc_beta cfg : R) / (cc_alpha cfg : R) + (cc_l2 cfg : R))) /\
    (Forall (fun iv => 0 <= (snd iv : R)) l -> 0 <= s' <= s).
Proof. exact sens_main. Qed.
Print Assumptions C79_training.

Example C79_training_example : exists (c0 : coin RF),
  coin_new ex_hash true (@coin_default RF) gc16 1 = Ok c0 /\ bits_to_max_feature_index true (gc_bits gc16) = Ok 16%N /\
  Forall (fun e => below 16 (ex_f e)) (ex_run RF ++ ex_run RF) /\ below 16 (two RF) /\
  0 < (cc_alpha (@coin_default RF) : R) /\ 0 < (cc_beta (@coin_default RF) : R) /\ 0 <= (cc_l2 (@coin_default RF) : R) /\
  exists l, coin_feats true c0 (two RF) = Ok l /\ l <> [] /\ Forall (fun iv => 0 <= (snd iv : R)) l.
Proof. exact ex_sens. Qed.

(** C79.  Only the signs of the values matter, in any arithmetic. *)
Theorem C79_signs : forall (O : FOps) dbg (c : coin O) f f' l l', coin_feats dbg c f = Ok l -> coin_feats dbg c f' = Ok l' ->
  Forall2 (fun a b => fst a = fst b /\ f_signum O (snd a) = f_signum O (snd b)) l l' ->
  coin_sensitivity dbg c f = coin_sensitivity dbg c f'.
Proof. exact @sens_signs. Qed.
Print Assumptions C79_signs.

Example C79_signs_example : exists (c0 : coin BF0) l l', coin_new ex_hash true (@coin_default BF0) gc16 1 = Ok c0 /\
  coin_feats true c0 (two BF0) = Ok l /\ coin_feats true c0 scaled = Ok l' /\ l <> l' /\
  Forall2 (fun a b => fst a = fst b /\ f_signum BF0 (snd a) = f_signum BF0 (snd b)) l l'.
Proof. exact ex_signs. Qed.

(** C79.  A feature of value zero changes no prediction, but it changes the sensitivity. *)
Theorem C79_zero_value_refuted : exists (c0 : coin BF0) s s', coin_new ex_hash true (@coin_default BF0) gc16n 1 = Ok c0 /\
  coin_predict true c0 zero_value = coin_predict true c0 no_value /\
  coin_sensitivity true c0 zero_value = Ok s /\ coin_sensitivity true c0 no_value = Ok s' /\ s <> s'.
Proof. exact zero_counts. Qed.
Print Assumptions C79_zero_value_refuted.

(** C79.  A stack asks its regressor, with the features it was given: interactions made
    by reductions on the way do not count, and contextual bandit features always panic. *)
Theorem C79_stack : forall (O : FOps) dbg n (r : red O n) f,
  sensitivity dbg n r f = match f with FtsSimple s => coin_sensitivity dbg (bottom n r) s | FtsCb _ _ => Pn PType end.
Proof. exact @sens_stack. Qed.
Print Assumptions C79_stack.
