(** C93: property theorems about examples of weight zero and features of value zero. *)
From Coq Require Import List NArith ZArith Bool Reals.
From Verif Require Import Base FloatOps FloatR FloatB32 Model_Hash Model_Features Model_Weights Model_Loss
  Model_Interactions Model_Types Model_Coin Spec_Coin Proof_StackProps Proof_CoinR Spec_Zero Proof_Zero Proof_ZeroEx.
Import ListNotations.
Open Scope N_scope.

(** C93.  In exact arithmetic an example of weight zero leaves the gradient sums, the wealth,
    the largest update and the totals of the regressor as they are.  (The weight used for
    predicting, the largest value seen and the range of labels may change.) *)
Theorem C93_weight_zero :
  forall H dbg (cfg : coin_config RF) gc nma n (c0 : coin RF) h e,
  coin_new H dbg cfg gc nma = Ok c0 -> 0 < nma < 2 ^ 8 ->
  bits_to_max_feature_index dbg (gc_bits gc) = Ok n ->
  Forall (fun e => below n (ex_f e)) h -> below n (ex_f e) -> (ex_w e : R) = 0%R ->
  exists c c', train dbg h c0 = Ok c /\ coin_learn dbg c (ex_f e) (ex_y e) (ex_w e) = Ok c' /\
    co_states c' = co_states c /\
    forall i, i < n -> exists st st', stored dbg c i = Ok st /\ stored dbg c' i = Ok st' /\
      sg st' W_ZT = sg st W_ZT /\ sg st' W_G2 = sg st W_G2 /\ sg st' W_WE = sg st W_WE /\ sg st' W_MG = sg st W_MG /\
      ((sg st W_MX : R) <= (sg st' W_MX : R))%R.
Proof. exact weight_zero_main. Qed.
Print Assumptions C93_weight_zero.

(** C93.  An example of weight zero can still change predictions, at binary32. *)
Theorem C93_weight_zero_refuted : forall ex lx px, let O := BF ex lx px in
  ~ (forall H dbg (cfg : coin_config O) gc nma c0 h e c c' f p p',
       coin_new H dbg cfg gc nma = Ok c0 -> train dbg h c0 = Ok c -> is_zero (ex_w e) ->
       coin_learn dbg c (ex_f e) (ex_y e) (ex_w e) = Ok c' ->
       coin_predict dbg c f = Ok p -> coin_predict dbg c' f = Ok p' ->
       f_eqb O (scalar_of p) (scalar_of p') = true).
Proof. exact weight_zero_refuted. Qed.
Print Assumptions C93_weight_zero_refuted.

(** C93.  In exact arithmetic a prediction does not depend on features of value zero. *)
Theorem C93_zero_value_predict :
  forall H dbg (cfg : coin_config RF) gc nma n (c0 : coin RF) h f g,
  coin_new H dbg cfg gc nma = Ok c0 -> 0 < nma < 2 ^ 8 ->
  bits_to_max_feature_index dbg (gc_bits gc) = Ok n ->
  Forall (fun e => below n (ex_f e)) h -> below n f -> thinner dbg c0 f g ->
  exists c p, train dbg h c0 = Ok c /\ coin_predict dbg c f = Ok p /\ coin_predict dbg c g = Ok p.
Proof. exact zero_predict_main. Qed.
Print Assumptions C93_zero_value_predict.

(** C93.  In exact arithmetic indices that have the value zero wherever they occur can be left
    out of training and predicting. *)
Theorem C93_always_zero :
  forall H dbg (cfg : coin_config RF) gc nma n (c0 : coin RF) D h h' f g,
  coin_new H dbg cfg gc nma = Ok c0 -> 0 < nma < 2 ^ 8 ->
  bits_to_max_feature_index dbg (gc_bits gc) = Ok n ->
  Forall (fun e => below n (ex_f e)) h -> Forall (fun e => below n (ex_f e)) h' -> below n f ->
  Forall2 (same_but (without dbg c0 D)) h h' -> without dbg c0 D f g ->
  exists c c' p, train dbg h c0 = Ok c /\ train dbg h' c0 = Ok c' /\
    coin_predict dbg c f = Ok p /\ coin_predict dbg c' g = Ok p.
Proof. exact always_zero_main. Qed.
Print Assumptions C93_always_zero.

(** C93.  A feature of value zero in a training example can change later predictions, at
    binary32: it is not the same as leaving the feature out. *)
Theorem C93_zero_value_refuted : forall ex lx px, let O := BF ex lx px in
  ~ (forall H dbg (cfg : coin_config O) gc nma c0 h h' c c' f p p',
       coin_new H dbg cfg gc nma = Ok c0 -> Forall2 (same_but (thinner dbg c0)) h h' ->
       train dbg h c0 = Ok c -> train dbg h' c0 = Ok c' ->
       coin_predict dbg c f = Ok p -> coin_predict dbg c' f = Ok p' ->
       f_eqb O (scalar_of p) (scalar_of p') = true).
Proof. exact value_zero_refuted. Qed.
Print Assumptions C93_zero_value_refuted.

(** a regressor with constant feature and runs with a feature of value zero that meet the
    conditions *)
Example C93_example : exists c0 : coin RF,
  coin_new ex_hash true (@coin_default RF) gc16 1 = Ok c0 /\
  bits_to_max_feature_index true (gc_bits gc16) = Ok 16 /\
  Forall (fun e => below 16 (ex_f e)) (zr_idle RF) /\ Forall (fun e => below 16 (ex_f e)) (zr_slim_idle RF) /\
  below 16 (zr_wide RF) /\ is_zero (0%R : RF) /\
  thinner true c0 (zr_wide RF) (zr_slim RF) /\
  Forall2 (same_but (without true c0 zr_D)) (zr_idle RF) (zr_slim_idle RF) /\
  without true c0 zr_D (zr_wide RF) (zr_slim RF).
Proof. exact zr_exists. Qed.
