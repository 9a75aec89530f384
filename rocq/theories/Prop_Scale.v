(** C94: property theorems about the unit of the labels. *)
From Coq Require Import List NArith ZArith Bool Reals.
From Verif Require Import Base FloatOps FloatR FloatB32 Model_Hash Model_Features Model_Weights Model_Loss
  Model_Interactions Model_Types Model_Coin Model_Stack Spec_Coin Spec_Metrics Spec_Unbiased Spec_Learn Proof_StackProps Proof_CoinR
  Proof_UnbiasedEx Proof_LearnEx Spec_Zero Spec_Scale Proof_Scale Proof_ScaleEx Proof_ScaleCb Proof_ScaleCbEx.
Import ListNotations.
Open Scope R_scope.

(** C94.  In exact arithmetic: multiplying all labels by [s], alpha by s * s and beta by |s|
    multiplies all predictions (before the link function) by [s]. *)
Theorem C94_label_unit : forall H dbg (cfg : coin_config RF) gc nma n (c0 : coin RF) s h f, s <> 0 ->
  coin_new H dbg cfg gc nma = Ok c0 -> (0 < nma < 2 ^ 8)%N -> bits_to_max_feature_index dbg (gc_bits gc) = Ok n ->
  cc_loss cfg = LossSquared \/ Rabs s = 1 ->
  Forall (fun e => below n (ex_f e)) h -> below n f ->
  exists c0' c c' q raw, coin_new H dbg (scaled_cfg s cfg) gc nma = Ok c0' /\
    train dbg h c0 = Ok c /\ train dbg (map (scaled_ex s) h) c0' = Ok c' /\
    coin_predict dbg c f = Ok (PrScalar (link_fun (cc_link cfg) q) raw) /\
    coin_predict dbg c' f = Ok (PrScalar (link_fun (cc_link cfg) ((s * q)%R : RF)) ((s * raw)%R : RF)).
Proof. exact scale_main. Qed.
Print Assumptions C94_label_unit.

(** C94.  In exact arithmetic, with any configuration: changing the sign of all labels changes
    the sign of all predictions. *)
Theorem C94_mirror : forall H dbg (cfg : coin_config RF) gc nma n (c0 : coin RF) h f,
  coin_new H dbg cfg gc nma = Ok c0 -> (0 < nma < 2 ^ 8)%N -> bits_to_max_feature_index dbg (gc_bits gc) = Ok n ->
  Forall (fun e => below n (ex_f e)) h -> below n f ->
  exists c c' (q raw : RF), train dbg h c0 = Ok c /\ train dbg (map (fun e => mkEx (ex_f e) (f_neg RF (ex_y e)) (ex_w e)) h) c0 = Ok c' /\
    coin_predict dbg c f = Ok (PrScalar (link_fun (cc_link cfg) q) raw) /\
    coin_predict dbg c' f = Ok (PrScalar (link_fun (cc_link cfg) (f_neg RF q)) (f_neg RF raw)).
Proof. exact mirror_main. Qed.
Print Assumptions C94_mirror.

(** C94.  In exact arithmetic: multiplying all costs of a log by [s], alpha by s * s and beta by |s|
    multiplies all scores of a contextual bandit by [s], with ips and with mtr. *)
Theorem C94_costs : forall H dbg ty (cfg : coin_config RF) gc nma n (c0 c0' : coin RF) s w w0 w' w0' l r r' f p p' g g', s <> 0 ->
  coin_new H dbg cfg gc nma = Ok c0 -> coin_new H dbg (scaled_cfg s cfg) gc nma = Ok c0' ->
  (0 < nma < 2 ^ 8)%N -> bits_to_max_feature_index dbg (gc_bits gc) = Ok n -> cc_loss cfg = LossSquared \/ Rabs s = 1 ->
  countable l -> Forall (fun e => below n (ex_f e)) (match ty with Mtr => mtr_examples 0 0 l | Ips => ips_examples l end) ->
  Forall (below n) (seen_ips f) ->
  taught dbg ((w, KCbAdf ty 0 0, (w0, c0)) : red RF 1) l r ->
  taught dbg ((w', KCbAdf ty 0 0, (w0', c0')) : red RF 1) (map (scaled_point s) l) r' ->
  ws_predict dbg r f = Ok (p, g) -> ws_predict dbg r' f = Ok (p', g') ->
  exists sc : list (N * R), p = @PrScores RF sc /\ p' = @PrScores RF (map (fun x => (fst x, s * snd x)) sc).
Proof. exact costs_main. Qed.
Print Assumptions C94_costs.

(** C94.  ... and if also the lambda of softmax and the gamma scale of SquareCB are divided by [s],
    exploration on top predicts exactly the same probabilities. *)
Theorem C94_policy : forall H dbg ty (cfg : coin_config RF) gc nma n (c0 c0' : coin RF) s k w1 w w0 w1' w' w0' l r r' f p p' g g', 0 < s ->
  coin_new H dbg cfg gc nma = Ok c0 -> coin_new H dbg (scaled_cfg s cfg) gc nma = Ok c0' ->
  (0 < nma < 2 ^ 8)%N -> bits_to_max_feature_index dbg (gc_bits gc) = Ok n -> cc_loss cfg = LossSquared ->
  match k with KGreedy _ | KSoftmax _ _ _ | KSquareCb _ _ _ _ => True | _ => False end ->
  countable l ->
  Forall (fun e => below n (ex_f e)) (match ty with Mtr => mtr_examples 0 0 (handed_down k l) | Ips => ips_examples (handed_down k l) end) ->
  Forall (below n) (seen_ips f) ->
  taught dbg ((w1, k, ((w, KCbAdf ty 0 0, (w0, c0)) : red RF 1)) : red RF 2) l r ->
  taught dbg ((w1', scaled_kind s k, ((w', KCbAdf ty 0 0, (w0', c0')) : red RF 1)) : red RF 2) (map (scaled_point s) l) r' ->
  ws_predict dbg r f = Ok (p, g) -> ws_predict dbg r' f = Ok (p', g') -> p' = p.
Proof. exact policy_main. Qed.
Print Assumptions C94_policy.

(** C94.  Without changing alpha and beta twice the labels do not give twice the predictions. *)
Theorem C94_same_configuration_refuted : forall ex lx px, let O := BF ex lx px in
  ~ (forall H dbg (cfg : coin_config O) gc nma c0 h f c c' p p', coin_new H dbg cfg gc nma = Ok c0 ->
       train dbg h c0 = Ok c -> train dbg (map (fun e => mkEx (ex_f e) (f_mul O (fl 2) (ex_y e)) (ex_w e)) h) c0 = Ok c' ->
       coin_predict dbg c f = Ok p -> coin_predict dbg c' f = Ok p' ->
       f_eqb O (scalar_of p') (f_mul O (fl 2) (scalar_of p)) = true).
Proof. exact scale_refuted. Qed.
Print Assumptions C94_same_configuration_refuted.

Example C94_example : exists (c0 : coin RF),
  coin_new ex_hash true (@coin_default RF) gc16 1 = Ok c0 /\
  bits_to_max_feature_index true (gc_bits gc16) = Ok 16%N /\
  f_isnan RF (cc_beta (@coin_default RF)) = false /\
  Forall (fun e => below 16 (ex_f e)) (ex_run RF).
Proof. exact ex_coin_R. Qed.

Example C94_costs_example : forall s lo hi, exists w w0 w' w0' (c0 c0' : coin RF) r r' p p' g g',
  coin_new ex_hash false (@coin_default RF) gc16n 1 = Ok c0 /\ coin_new ex_hash false (scaled_cfg s (@coin_default RF)) gc16n 1 = Ok c0' /\
  bits_to_max_feature_index false (gc_bits gc16n) = Ok 16%N /\ cc_loss (@coin_default RF) = LossSquared /\ countable (lr_log lo hi) /\
  Forall (fun e => below 16 (ex_f e)) (mtr_examples 0 0 (lr_log lo hi)) /\ Forall (below 16) (seen_ips ub_fts) /\
  taught false ((w, KCbAdf Mtr 0 0, (w0, c0)) : red RF 1) (lr_log lo hi) r /\
  taught false ((w', KCbAdf Mtr 0 0, (w0', c0')) : red RF 1) (map (scaled_point s) (lr_log lo hi)) r' /\
  ws_predict false r ub_fts = Ok (p, g) /\ ws_predict false r' ub_fts = Ok (p', g').
Proof. exact sc_costs_example. Qed.

Example C94_policy_example : forall eps s lo hi, exists w1 w w0 w1' w' w0' (c0 c0' : coin RF) r r' p p' g g',
  coin_new ex_hash false (@coin_default RF) gc16n 1 = Ok c0 /\ coin_new ex_hash false (scaled_cfg s (@coin_default RF)) gc16n 1 = Ok c0' /\
  bits_to_max_feature_index false (gc_bits gc16n) = Ok 16%N /\ cc_loss (@coin_default RF) = LossSquared /\ countable (lr_log lo hi) /\
  Forall (fun e => below 16 (ex_f e)) (mtr_examples 0 0 (lr_log lo hi)) /\ Forall (below 16) (seen_ips ub_fts) /\
  taught false ((w1, KGreedy eps, ((w, KCbAdf Mtr 0 0, (w0, c0)) : red RF 1)) : red RF 2) (lr_log lo hi) r /\
  taught false ((w1', KGreedy eps, ((w', KCbAdf Mtr 0 0, (w0', c0')) : red RF 1)) : red RF 2) (map (scaled_point s) (lr_log lo hi)) r' /\
  ws_predict false r ub_fts = Ok (p, g) /\ ws_predict false r' ub_fts = Ok (p', g').
Proof. exact sc_policy_example. Qed.
