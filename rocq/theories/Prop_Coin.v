(** C18, C19, C20, C46: property theorems about the coin regressor. *)
From Coq Require Import List NArith ZArith Bool Lia Reals SpecFloat.
From Verif Require Import Base FloatOps FloatR FloatB32 Model_Hash Model_Features Model_Weights Model_Loss
  Model_Interactions Model_Types Model_Coin Spec_Coin Proof_StackProps Proof_FloatOrder Proof_Coin Proof_CoinR.
Import ListNotations.
Open Scope N_scope.

(** C18.  At binary32, after any training run, neither training nor predicting panics,
    the value before the link function is no NaN and lies between two of the starting
    bounds and the labels seen.  With the identity link this value is the prediction. *)
Theorem C18_range :
  forall e l p, let O := BF e l p in
  forall H dbg (cfg : coin_config O) gc nma n c0 (h : list (example O)) f,
  coin_new H dbg cfg gc nma = Ok c0 -> 0 < nma < 2 ^ 8 ->
  bits_to_max_feature_index dbg (gc_bits gc) = Ok n ->
  Forall (fun e => below n (ex_f e)) h -> below n f ->
  exists c q raw, train dbg h c0 = Ok c /\
    coin_predict dbg c f = Ok (PrScalar (link_fun (cc_link cfg) q) raw) /\
    f_isnan O q = false /\ f_isnan O raw = false /\
    between q (lo0 cfg :: map ex_y h) (hi0 cfg :: map ex_y h).
Proof. exact (fun e l p => coin_range_main (BF_ford e l p)). Qed.
Print Assumptions C18_range.

Corollary C18_identity_link :
  forall e l p, let O := BF e l p in
  forall H dbg (cfg : coin_config O) gc nma n c0 (h : list (example O)) f,
  cc_link cfg = LinkIdentity -> cc_loss cfg = LossSquared ->
  coin_new H dbg cfg gc nma = Ok c0 -> 0 < nma < 2 ^ 8 ->
  bits_to_max_feature_index dbg (gc_bits gc) = Ok n ->
  Forall (fun e => below n (ex_f e)) h -> below n f ->
  exists c q raw, train dbg h c0 = Ok c /\ coin_predict dbg c f = Ok (PrScalar q raw) /\
    f_isnan O q = false /\ between q (f0 :: map ex_y h) (f0 :: map ex_y h).
Proof. exact (fun e l p => identity_main (BF_ford e l p)). Qed.
Print Assumptions C18_identity_link.

Example C18_example : forall e l p, let O := BF e l p in
  exists c0 c v raw, coin_new ex_hash true (@coin_default O) gc16 1 = Ok c0 /\
  bits_to_max_feature_index true (gc_bits gc16) = Ok 16 /\
  Forall (fun e => below 16 (ex_f e)) (ex_run O) /\
  train true (ex_run O) c0 = Ok c /\ coin_predict true c (two O) = Ok (PrScalar v raw) /\
  f_ltb O f0 v = true /\ f_ltb O v (fl 3) = true.
Proof. exact ex_coin. Qed.

(** C19.  A learn call changes the stored numbers only at indices of the example, and
    keeps the raw prediction of every example sharing no index with it. *)
Theorem C19_only_used_weights :
  forall e l p, let O := BF e l p in
  forall H dbg (cfg : coin_config O) gc nma n (c0 : coin O) h e,
  coin_new H dbg cfg gc nma = Ok c0 -> 0 < nma < 2 ^ 8 ->
  bits_to_max_feature_index dbg (gc_bits gc) = Ok n ->
  Forall (fun e => below n (ex_f e)) h -> below n (ex_f e) ->
  exists c c' : coin O, train dbg h c0 = Ok c /\ coin_learn dbg c (ex_f e) (ex_y e) (ex_w e) = Ok c' /\
    (forall i, i < n -> ~ uses dbg c (ex_f e) i -> stored dbg c' i = stored dbg c i) /\
    (forall g, below n g -> (forall i, uses dbg c g i -> ~ uses dbg c (ex_f e) i) ->
       exists p p' raw : O, coin_predict dbg c g = Ok (PrScalar p raw) /\
                            coin_predict dbg c' g = Ok (PrScalar p' raw)).
Proof. exact (fun e l p => learn_frame_main (BF_ford e l p)). Qed.
Print Assumptions C19_only_used_weights.

Example C19_example : forall (O : FOps), exists c0, coin_new ex_hash true (@coin_default O) gc16n 1 = Ok c0 /\
  (forall i, uses true c0 (two O) i -> ~ uses true c0 (other O) i).
Proof. exact ex_disjoint. Qed.

(** C20.  In exact arithmetic the sum of gradient magnitudes is nonnegative and bounds
    the magnitude of the sum of gradients. *)
Theorem C20_accumulators :
  forall H dbg (cfg : coin_config RF) gc nma n (c0 : coin RF) h,
  coin_new H dbg cfg gc nma = Ok c0 -> 0 < nma < 2 ^ 8 ->
  bits_to_max_feature_index dbg (gc_bits gc) = Ok n ->
  Forall (fun e => below n (ex_f e)) h ->
  exists c, train dbg h c0 = Ok c /\
    forall i, i < n -> exists st, stored dbg c i = Ok st /\
      (0 <= (sg st W_G2 : R))%R /\ (Rabs (sg st W_ZT : R) <= (sg st W_G2 : R))%R.
Proof. exact accumulators_main. Qed.
Print Assumptions C20_accumulators.

(** C20.  At binary32 the recorded maxima never decrease during further training, and
    the recorded maximum feature value bounds every value trained on. *)
Theorem C20_maxima :
  forall e l p, let O := BF e l p in
  forall H dbg (cfg : coin_config O) gc nma n (c0 : coin O) h k,
  coin_new H dbg cfg gc nma = Ok c0 -> 0 < nma < 2 ^ 8 ->
  bits_to_max_feature_index dbg (gc_bits gc) = Ok n ->
  f_isnan O (cc_beta cfg) = false ->
  Forall (fun e => below n (ex_f e)) h -> Forall (fun e => below n (ex_f e)) k ->
  exists c c' : coin O, train dbg h c0 = Ok c /\ train dbg k c = Ok c' /\
    forall i, i < n -> exists st st', stored dbg c i = Ok st /\ stored dbg c' i = Ok st' /\
      f_leb O (sg st W_MX) (sg st' W_MX) = true /\ f_leb O (sg st W_MG) (sg st' W_MG) = true /\
      (forall e l v, In e k -> coin_feats dbg c0 (ex_f e) = Ok l -> In (i, v) l ->
         f_isnan O (f_abs O v) = false -> f_leb O (f_abs O v) (sg st' W_MX) = true).
Proof. exact (fun e l p => maxima_main (BF_ford e l p)). Qed.
Print Assumptions C20_maxima.

(** C20.  After a learn call the recorded maximum gradient bounds the gradient of that
    call at every feature of the example. *)
Theorem C20_gradient :
  forall e l p, let O := BF e l p in
  forall H dbg (cfg : coin_config O) gc nma n (c0 : coin O) h e,
  coin_new H dbg cfg gc nma = Ok c0 -> 0 < nma < 2 ^ 8 ->
  bits_to_max_feature_index dbg (gc_bits gc) = Ok n ->
  f_isnan O (cc_beta cfg) = false ->
  Forall (fun e => below n (ex_f e)) h -> below n (ex_f e) ->
  exists c c' l p cb, train dbg h c0 = Ok c /\ coin_learn dbg c (ex_f e) (ex_y e) (ex_w e) = Ok c' /\
    coin_feats dbg c (ex_f e) = Ok l /\
    coin_betting_predict dbg (coin_range c (ex_y e)) (ex_f e) (ex_w e) = Ok (p, cb) /\
    let g := f_mul O (sq_d1 (co_min c') (co_max c') p (ex_y e)) (ex_w e) in
    forall i v, In (i, v) l -> exists st', stored dbg c' i = Ok st' /\
      (f_isnan O (f_abs O g) = false -> f_leb O (f_abs O g) (sg st' W_MG) = true).
Proof. exact (fun e l p => gradient_main (BF_ford e l p)). Qed.
Print Assumptions C20_gradient.

Example C20_example : exists (c0 : coin RF),
  coin_new ex_hash true (@coin_default RF) gc16 1 = Ok c0 /\
  bits_to_max_feature_index true (gc_bits gc16) = Ok 16 /\
  f_isnan RF (cc_beta (@coin_default RF)) = false /\
  Forall (fun e => below 16 (ex_f e)) (ex_run RF).
Proof. exact ex_coin_R. Qed.

(** C46.  Whatever loss is configured, a learn call subtracts the gradient of the squared
    loss from the gradient sum of a feature occurring once. *)
Theorem C46_squared_always :
  forall e l p, let O := BF e l p in
  forall H dbg (cfg : coin_config O) gc nma n (c0 : coin O) h e,
  coin_new H dbg cfg gc nma = Ok c0 -> 0 < nma < 2 ^ 8 ->
  bits_to_max_feature_index dbg (gc_bits gc) = Ok n ->
  Forall (fun e => below n (ex_f e)) h -> below n (ex_f e) ->
  exists c c' l p cb, train dbg h c0 = Ok c /\ coin_learn dbg c (ex_f e) (ex_y e) (ex_w e) = Ok c' /\
    coin_feats dbg c (ex_f e) = Ok l /\
    coin_betting_predict dbg (coin_range c (ex_y e)) (ex_f e) (ex_w e) = Ok (p, cb) /\
    forall l1 i v l2, l = l1 ++ (i, v) :: l2 -> (forall x, ~ In (i, x) (l1 ++ l2)) ->
      exists st st', stored dbg c i = Ok st /\ stored dbg c' i = Ok st' /\
        let g := f_mul O (f_mul O (sq_d1 (co_min c') (co_max c') p (ex_y e)) (ex_w e)) v in
        sg st' W_ZT = f_add O (sg st W_ZT) (f_neg O g) /\
        sg st' W_G2 = f_add O (sg st W_G2) (f_abs O g).
Proof. exact (fun e l p => squared_main (BF_ford e l p)). Qed.
Print Assumptions C46_squared_always.

(** C46.  A regressor configured with the logistic loss does not learn with its gradient:
    one example with label 1 and value 1 adds 2 to the gradient sum, not 1/2. *)
Theorem C46_configured_loss_refuted : forall e l p, let O := BF e l p in
  e (S754_zero false) = @f1 O -> e (S754_zero true) = @f1 O ->
  exists c0 c' pr cb st',
    coin_new ex_hash true (logistic_cfg O) gc16n 1 = Ok c0 /\
    coin_betting_predict true (coin_range c0 f1) (other O) f1 = Ok (pr, cb) /\
    coin_learn true c0 (other O) f1 f1 = Ok c' /\
    stored true c' 9 = Ok st' /\
    sg st' W_ZT = fl 2 /\
    f_neg O (loss_d1 (cc_loss (logistic_cfg O)) (co_min c') (co_max c') pr f1) = f_lit O 1 2.
Proof. exact logistic_ignored. Qed.
Print Assumptions C46_configured_loss_refuted.
