(** C82: the regressor fits its examples as well as the best linear predictor.  Exact arithmetic. *)
From Coq Require Import List NArith ZArith Reals.
From Verif Require Import Base FloatOps FloatR Model_Hash Model_Features Model_Weights Model_Loss
  Model_Interactions Model_Types Model_Explore Model_Coin Model_Stack Model_Factory Spec_Coin Spec_Regret Spec_Fit
  Proof_StackProps Proof_CoinR Proof_Lag Proof_Fit Proof_FitEx.
Import ListNotations.
Open Scope R_scope.

(** On every sequence of examples with [k] features each, every feature always of the same magnitude: predicting each
    example right after learning it loses at most [fit_gap] more than the linear predictor [u], which grows like the
    square root of the number of examples (times a logarithm). *)
Theorem C82_fit : forall H dbg (cfg : coin_config RF) gc nma n (c0 : coin RF) idx xi xmax lo hi wmin wmax k m u h ls,
  coin_new H dbg cfg gc nma = Ok c0 -> (0 < nma < 2 ^ 8)%N ->
  bits_to_max_feature_index dbg (gc_bits gc) = Ok n ->
  0 < (cc_alpha cfg : R) -> 0 < (cc_beta cfg : R) -> 0 < xi <= xmax -> cc_link cfg = LinkIdentity ->
  lo <= lo0 cfg -> hi0 cfg <= hi -> 2 * (hi - lo) * wmax <= cc_beta cfg -> 0 < wmin -> (0 < k)%nat -> (forall i, 0 < m i) ->
  NoDup idx -> Forall (fun i => (i < n)%N) idx ->
  Forall (fun e => tame dbg c0 n idx xi xmax lo hi wmax e /\ wmin <= ex_w e) h -> Forall2 (regular dbg c0 k m) h ls ->
  exists r, fit_loss dbg h c0 = Ok r /\
    r <= linear_loss u h ls + fit_gap (cc_alpha cfg) (cc_beta cfg) xi xmax lo hi wmin wmax k u idx (INR (length h)).
Proof. exact fit_bound. Qed.
Print Assumptions C82_fit.

(** So per example nothing is lost in the limit; in a workspace, through learn and predict. *)
Theorem C82_limit : forall H (cfg : coin_config RF) gc n (c0 : coin RF) R0 idx xi xmax lo hi wmin wmax k m u eps,
  ws_new H false gc (CCoin cfg) = Ok R0 -> coin_new H false cfg gc 1 = Ok c0 ->
  bits_to_max_feature_index false (gc_bits gc) = Ok n ->
  0 < (cc_alpha cfg : R) -> 0 < (cc_beta cfg : R) -> 0 < xi <= xmax -> cc_link cfg = LinkIdentity ->
  lo <= lo0 cfg -> hi0 cfg <= hi -> 2 * (hi - lo) * wmax <= cc_beta cfg -> 0 < wmin <= wmax -> (0 < k)%nat -> (forall i, 0 < m i) ->
  NoDup idx -> Forall (fun i => (i < n)%N) idx -> 0 < eps ->
  exists t0, forall h ls, (t0 <= length h)%nat ->
    Forall (fun e => tame false c0 n idx xi xmax lo hi wmax e /\ wmin <= ex_w e) h -> Forall2 (regular false c0 k m) h ls ->
    exists r, ws_fit_loss h (projT2 R0) = Ok r /\ r <= linear_loss u h ls + eps * INR (length h).
Proof. exact ws_fit_limit. Qed.
Print Assumptions C82_limit.

(** Any number of copies of an example that some linear predictor gets right meets the hypotheses. *)
Example C82_example : forall t : nat, exists c0 : coin RF,
  coin_new ex_hash false cfg2 gc16n 1 = Ok c0 /\ (exists R0, ws_new ex_hash false gc16n (CCoin cfg2) = Ok R0) /\
  bits_to_max_feature_index false (gc_bits gc16n) = Ok 16%N /\
  0 < (cc_alpha cfg2 : R) /\ 0 < (cc_beta cfg2 : R) /\ cc_link cfg2 = LinkIdentity /\ 0 <= lo0 cfg2 /\ hi0 cfg2 <= 1 /\ 2 * (1 - 0) * 1 <= cc_beta cfg2 /\
  NoDup [5%N; 6%N] /\ Forall (fun i => (i < 16)%N) [5%N; 6%N] /\ 
  (forall i, 0 < fit_m i) /\ length (fit_h t) = t /\
  Forall (fun e => tame false c0 16 [5%N; 6%N] 1 2 0 1 1 e /\ 1 <= ex_w e) (fit_h t) /\ Forall2 (regular false c0 2 fit_m) (fit_h t) (fit_ls t) /\
  linear_loss fit_u (fit_h t) (fit_ls t) = 0.
Proof. exact ex_fit. Qed.
