(** C66, C67: the wealth and the regret of the coin regressor, exact arithmetic. *)
From Coq Require Import List NArith ZArith Reals.
From Verif Require Import Base FloatOps FloatR FloatB32 Model_Hash Model_Features Model_Weights Model_Loss
  Model_Interactions Model_Types Model_Coin Spec_Coin Spec_Stack Spec_Regret Proof_StackProps Proof_CoinR Proof_Bettor Proof_Regret Proof_Lag.
Import ListNotations.
Open Scope R_scope.

(** C66.  The wealth of a feature never runs out: whatever the labels and weights, the starting wealth plus the
    earnings stays positive. *)
Theorem C66_solvent : forall H dbg (cfg : coin_config RF) gc nma n (c0 : coin RF) h,
  coin_new H dbg cfg gc nma = Ok c0 -> (0 < nma < 2 ^ 8)%N ->
  bits_to_max_feature_index dbg (gc_bits gc) = Ok n -> Forall (fun e => below n (ex_f e)) h -> 0 < (cc_alpha cfg : R) ->
  exists c, train dbg h c0 = Ok c /\
    forall i, (i < n)%N -> exists st, stored dbg c i = Ok st /\ 0 < (cc_alpha cfg : R) + (sg st W_WE : R).
Proof. exact solvent_main. Qed.
Print Assumptions C66_solvent.

(** C66.  The wealth grows exponentially in the square of the gradient sum. *)
Theorem C66_growth : forall H dbg (cfg : coin_config RF) gc nma n (c0 : coin RF) h xi,
  coin_new H dbg cfg gc nma = Ok c0 -> (0 < nma < 2 ^ 8)%N ->
  bits_to_max_feature_index dbg (gc_bits gc) = Ok n -> Forall (fun e => below n (ex_f e)) h ->
  0 < (cc_alpha cfg : R) -> 0 < (cc_beta cfg : R) -> 0 < xi -> Forall (resolved dbg c0 xi) h ->
  exists c, train dbg h c0 = Ok c /\
    forall i, (i < n)%N -> exists st, stored dbg c i = Ok st /\
      let s := (sg st W_MG : R) * (sg st W_MX : R) in let z := (sg st W_ZT : R) in let g := (sg st W_G2 : R) in
      (s = 0 -> z = 0 /\ g = 0 /\ (sg st W_WE : R) = 0) /\
      (s <> 0 -> (cc_alpha cfg : R) * ((cc_beta cfg : R) * xi) / (exp 1 * (s + g)) * exp (z * z / (2 * s * g))
                 <= (cc_alpha cfg : R) + (sg st W_WE : R)).
Proof. exact growth_main. Qed.
Print Assumptions C66_growth.

(** C66.  The earnings of a feature fall short of those of any fixed weight [u] by at most the starting wealth plus
    about [u] times the square root of the sum of the gradient magnitudes. *)
Theorem C66_coordinate : forall H dbg (cfg : coin_config RF) gc nma n (c0 : coin RF) h xi,
  coin_new H dbg cfg gc nma = Ok c0 -> (0 < nma < 2 ^ 8)%N ->
  bits_to_max_feature_index dbg (gc_bits gc) = Ok n -> Forall (fun e => below n (ex_f e)) h ->
  0 < (cc_alpha cfg : R) -> 0 < (cc_beta cfg : R) -> 0 < xi -> Forall (resolved dbg c0 xi) h ->
  exists c, train dbg h c0 = Ok c /\
    forall i u, (i < n)%N -> exists st, stored dbg c i = Ok st /\
      let s := (sg st W_MG : R) * (sg st W_MX : R) in let g := (sg st W_G2 : R) in
      u * (sg st W_ZT : R) - (sg st W_WE : R) <=
        (cc_alpha cfg : R) + Rabs u * sqrt (2 * s * g * ln (1 + exp 1 * Rabs u * g * (s + g) / ((cc_alpha cfg : R) * ((cc_beta cfg : R) * xi)))).
Proof. exact coordinate_main. Qed.
Print Assumptions C66_coordinate.

(** C66.  A fresh regressor that has learned one example predicts as if it had learned nothing: the weighted sum is
    zero for all features. *)
Theorem C66_first_example_ignored : forall H dbg (cfg : coin_config RF) gc nma n (c0 : coin RF) e l,
  coin_new H dbg cfg gc nma = Ok c0 -> (0 < nma < 2 ^ 8)%N -> bits_to_max_feature_index dbg (gc_bits gc) = Ok n ->
  below n (ex_f e) -> coin_feats dbg c0 (ex_f e) = Ok l -> NoDup (map fst l) ->
  exists c, coin_learn dbg c0 (ex_f e) (ex_y e) (ex_w e) = Ok c /\
    forall f, below n f -> exists q, coin_predict dbg c f = Ok (PrScalar q (0 : R)).
Proof. exact first_ignored. Qed.
Print Assumptions C66_first_example_ignored.

(** C66.  Predicting after a learn call does not give what learning the same example again would start from, in
    machine arithmetic. *)
Theorem C66_predict_current_refuted : forall ex lx px, let O := BF ex lx px in
  ~ (forall H dbg (cfg : coin_config O) gc nma c0 f y w c pr cb,
       coin_new H dbg cfg gc nma = Ok c0 -> coin_learn dbg c0 f y w = Ok c ->
       coin_betting_predict dbg (coin_range c y) f w = Ok (pr, cb) ->
       exists q raw, coin_predict dbg c f = Ok (PrScalar q raw) /\ f_eqb O q pr = true).
Proof. exact lag_refuted. Qed.
Print Assumptions C66_predict_current_refuted.

(** the witness: zero against more than nine tenths, at label one *)
Example C66_predict_current_witness : forall e l p, let O := BF e l p in
  exists c0 c pr cb q raw,
    coin_new ex_hash true (@coin_default O) gc16n 1 = Ok c0 /\
    coin_learn true c0 (other O) f1 f1 = Ok c /\
    coin_betting_predict true (coin_range c f1) (other O) f1 = Ok (pr, cb) /\
    coin_predict true c (other O) = Ok (PrScalar q raw) /\
    f_eqb O q f0 = true /\ f_ltb O (f_lit O 9 10) pr = true.
Proof. exact lag_witness. Qed.

(** C67.  On every sequence of examples with labels between [lo] and [hi], the predictions made while learning lose
    at most this much more than any fixed linear predictor, in the squared loss weighted by importance and normaliser. *)
Theorem C67_regret : forall H dbg (cfg : coin_config RF) gc nma n (c0 : coin RF) idx xi xmax lo hi wmax h u,
  coin_new H dbg cfg gc nma = Ok c0 -> (0 < nma < 2 ^ 8)%N ->
  bits_to_max_feature_index dbg (gc_bits gc) = Ok n ->
  0 < (cc_alpha cfg : R) -> 0 < (cc_beta cfg : R) -> 0 < xi <= xmax ->
  lo <= lo0 cfg -> hi0 cfg <= hi -> 2 * (hi - lo) * wmax <= cc_beta cfg ->
  NoDup idx -> Forall (fun i => (i < n)%N) idx -> Forall (tame dbg c0 n idx xi xmax lo hi wmax) h ->
  exists r, excess dbg u h c0 = Ok r /\
    let t := INR (length h) in
    r <= sum_of (fun i => cc_alpha cfg + Rabs (u i) * (cc_beta cfg * xmax *
           sqrt (2 * t * ln (1 + exp 1 * Rabs (u i) * t * (t + 1) * (cc_beta cfg * (xmax * xmax)) / (cc_alpha cfg * xi))))) idx.
Proof. exact regret_main. Qed.
Print Assumptions C67_regret.

(** C67.  So the regressor has no regret: per example, the excess over any fixed linear predictor vanishes. *)
Theorem C67_no_regret : forall H dbg (cfg : coin_config RF) gc nma n (c0 : coin RF) idx xi xmax lo hi wmax u eps,
  coin_new H dbg cfg gc nma = Ok c0 -> (0 < nma < 2 ^ 8)%N ->
  bits_to_max_feature_index dbg (gc_bits gc) = Ok n ->
  0 < (cc_alpha cfg : R) -> 0 < (cc_beta cfg : R) -> 0 < xi <= xmax ->
  lo <= lo0 cfg -> hi0 cfg <= hi -> 2 * (hi - lo) * wmax <= cc_beta cfg ->
  NoDup idx -> Forall (fun i => (i < n)%N) idx -> 0 < eps ->
  exists t0, forall h, Forall (tame dbg c0 n idx xi xmax lo hi wmax) h -> (t0 <= length h)%nat ->
    exists r, excess dbg u h c0 = Ok r /\ r <= eps * INR (length h).
Proof. exact no_regret_main. Qed.
Print Assumptions C67_no_regret.

(** a regressor, a range of labels and a run of three examples that meet the hypotheses *)
Example C67_example : exists c0 : coin RF,
  coin_new ex_hash true cfg2 gc16n 1 = Ok c0 /\ bits_to_max_feature_index true (gc_bits gc16n) = Ok 16%N /\
  0 < (cc_alpha cfg2 : R) /\ 0 < (cc_beta cfg2 : R) /\ 0 <= lo0 cfg2 /\ hi0 cfg2 <= 1 /\ 2 * (1 - 0) * 1 <= cc_beta cfg2 /\
  NoDup [5%N; 6%N; 9%N] /\ Forall (fun i => (i < 16)%N) [5%N; 6%N; 9%N] /\
  Forall (tame true c0 16 [5%N; 6%N; 9%N] 1 2 0 1 1) run2 /\ Forall (resolved true c0 1) run2.
Proof. exact ex_regret. Qed.
