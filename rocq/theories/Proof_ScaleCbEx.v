(** C94: the examples for bandits. *)
From Coq Require Import List NArith ZArith Bool Lia Reals Lra.
From Verif Require Import Base FloatOps FloatR Model_Hash Model_Features Model_Weights Model_Loss
  Model_Interactions Model_Types Model_Explore Model_Coin Model_Stack Model_Factory Spec_Features Spec_Weights Spec_Coin Spec_Stack Spec_Explore
  Spec_CbExplore Spec_Reductions Spec_Total Spec_Metrics Spec_OffPolicy Spec_Unbiased Spec_Learn Spec_Scale
  Proof_Weights Proof_WeightsProps Proof_FloatOrder Proof_StackRestore Proof_StackProps Proof_Reductions Proof_Total
  Proof_Coin Proof_CoinR Proof_Unbiased Proof_UnbiasedEx Proof_Learn Proof_LearnCb Proof_LearnEx.
Import ListNotations.
Open Scope R_scope.

Lemma sc_new : forall (cfg : coin_config RF) eps, cc_loss cfg = LossSquared -> exists w1 w w0 (c0 : coin RF),
  ws_new ex_hash false gc16n (CGreedy eps (CCbAdf Mtr (CCoin cfg))) =
    Ok (existT (red RF) 2%nat (w1, KGreedy eps, ((w, KCbAdf Mtr 0 0, (w0, c0)) : red RF 1))) /\
  coin_new ex_hash false cfg gc16n 1 = Ok c0 /\
  (td_in_feats (w_types w1) = feat_type_of ub_fts /\ forall a c p, td_in_label (w_types w1) = label_type_of (@LbCb RF a c p)).
Proof.
  intros cfg eps Hl. unfold ws_new. cbn [create]. unfold coin_new. cbn [bind]. destruct (@dw_new_ok RF false 16 1 6) as (w & E & _); try lia.
  cbn [gc_inter gc16n gc_seed compile_interactions bind].
  change (bits_to_max_feature_index false (gc_bits gc16n)) with (Ok 16%N : out N). rewrite Hl. cbn [bind].
  rewrite E. cbn [bind]. do 4 eexists. split; [reflexivity|]. split; [reflexivity|]. split; reflexivity.
Qed.
Lemma sc_policy : forall (cfg : coin_config RF) eps, cc_loss cfg = LossSquared ->
  forall l, (forall p, In p l -> exists a c q, p = mkPt ub_fts (@LbCb RF a c q) (PrProbs []) /\ (a < 2)%N) ->
  exists w1 w w0 (c0 : coin RF) r p g,
    ws_new ex_hash false gc16n (CGreedy eps (CCbAdf Mtr (CCoin cfg))) =
      Ok (existT (red RF) 2%nat (w1, KGreedy eps, ((w, KCbAdf Mtr 0 0, (w0, c0)) : red RF 1))) /\
    coin_new ex_hash false cfg gc16n 1 = Ok c0 /\
    taught false ((w1, KGreedy eps, ((w, KCbAdf Mtr 0 0, (w0, c0)) : red RF 1)) : red RF 2) l r /\ ws_predict false r ub_fts = Ok (p, g).
Proof.
  intros cfg eps Hl l K. destruct (sc_new cfg eps Hl) as (w1 & w & w0 & c0 & E & Ec & (Tf & Tl)).
  set (R0 := existT (red RF) 2%nat (w1, KGreedy eps, ((w, KCbAdf Mtr 0 0, (w0, c0)) : red RF 1))) in *.
  destruct (lr_taught _ R0 E eq_refl Tf Tl l K) with (r := projT2 R0) as (r & T & Q); [apply reach_refl|].
  destruct (predict_returns (O := RF) RF_ford lr_se ex_hash false gc16n _ R0 r ub_fts 16%N E Q) as (p & f' & P & _);
    [reflexivity|reflexivity|reflexivity|apply ub_plain|apply ub_below|symmetry; exact Tf|intros _; discriminate|discriminate|].
  exists w1, w, w0, c0, r, p, f'. split; [exact E|]. split; [exact Ec|]. split; [exact T|exact P].
Qed.
Lemma lr_points : forall lo hi p, In p (lr_log lo hi) -> exists a c q, p = mkPt ub_fts (@LbCb RF a c q) (PrProbs []) /\ (a < 2)%N.
Proof. intros lo hi p [<-|[<-|[<-|[<-|[]]]]]; do 3 eexists; (split; [reflexivity|lia]). Qed.

(** the log of C84, with all costs multiplied by [s] *)
Lemma sc_policy_example : forall eps s lo hi, exists w1 w w0 w1' w' w0' (c0 c0' : coin RF) r r' p p' g g',
  coin_new ex_hash false (@coin_default RF) gc16n 1 = Ok c0 /\ coin_new ex_hash false (scaled_cfg s (@coin_default RF)) gc16n 1 = Ok c0' /\
  bits_to_max_feature_index false (gc_bits gc16n) = Ok 16%N /\ cc_loss (@coin_default RF) = LossSquared /\ countable (lr_log lo hi) /\
  Forall (fun e => below 16 (ex_f e)) (mtr_examples 0 0 (lr_log lo hi)) /\ Forall (below 16) (seen_ips ub_fts) /\
  taught false ((w1, KGreedy eps, ((w, KCbAdf Mtr 0 0, (w0, c0)) : red RF 1)) : red RF 2) (lr_log lo hi) r /\
  taught false ((w1', KGreedy eps, ((w', KCbAdf Mtr 0 0, (w0', c0')) : red RF 1)) : red RF 2) (map (scaled_point s) (lr_log lo hi)) r' /\
  ws_predict false r ub_fts = Ok (p, g) /\ ws_predict false r' ub_fts = Ok (p', g').
Proof.
  intros eps s lo hi.
  destruct (sc_policy (@coin_default RF) eps eq_refl (lr_log lo hi) (lr_points lo hi)) as (w1 & w & w0 & c0 & r & p & g & _ & E & T & P).
  destruct (sc_policy (scaled_cfg s (@coin_default RF)) eps eq_refl (map (scaled_point s) (lr_log lo hi))) as (w1' & w' & w0' & c0' & r' & p' & g' & _ & E' & T' & P').
  { intros q Hq. apply in_map_iff in Hq. destruct Hq as (q0 & <- & Hq). destruct (lr_points lo hi q0 Hq) as (a & c & pr & -> & La).
    unfold scaled_point. cbn [pt_label pt_feats pt_pred]. do 3 eexists. split; [reflexivity|exact La]. }
  exists w1, w, w0, w1', w', w0', c0, c0', r, r', p, p', g, g'.
  split; [exact E|]. split; [exact E'|]. split; [reflexivity|]. split; [reflexivity|]. split; [split; reflexivity|].
  split. { pose proof (proj1 lr_below) as B. rewrite Forall_forall in B. repeat constructor; cbn [ex_f]; apply B; cbn; auto. }
  split; [apply lr_below|]. auto.
Qed.
(** ... the same stack without the exploration *)
Lemma sc_costs_example : forall s lo hi, exists w w0 w' w0' (c0 c0' : coin RF) r r' p p' g g',
  coin_new ex_hash false (@coin_default RF) gc16n 1 = Ok c0 /\ coin_new ex_hash false (scaled_cfg s (@coin_default RF)) gc16n 1 = Ok c0' /\
  bits_to_max_feature_index false (gc_bits gc16n) = Ok 16%N /\ cc_loss (@coin_default RF) = LossSquared /\ countable (lr_log lo hi) /\
  Forall (fun e => below 16 (ex_f e)) (mtr_examples 0 0 (lr_log lo hi)) /\ Forall (below 16) (seen_ips ub_fts) /\
  taught false ((w, KCbAdf Mtr 0 0, (w0, c0)) : red RF 1) (lr_log lo hi) r /\
  taught false ((w', KCbAdf Mtr 0 0, (w0', c0')) : red RF 1) (map (scaled_point s) (lr_log lo hi)) r' /\
  ws_predict false r ub_fts = Ok (p, g) /\ ws_predict false r' ub_fts = Ok (p', g').
Proof.
  intros s lo hi. destruct (sc_policy_example 0 s lo hi) as (w1 & w & w0 & w1' & w' & w0' & c0 & c0' & r & r' & p & p' & g & g' & E & E' & A1 & A2 & A3 & A4 & A5 & T & T' & P & P').
  destruct (explorer_taught false 1 w1 (@KGreedy RF 0) _ _ r eq_refl T) as (q & -> & Tq).
  destruct (explorer_taught false 1 w1' (@KGreedy RF 0) _ _ r' eq_refl T') as (q' & -> & Tq').
  destruct (explore_policy false 1 w1 (@KGreedy RF 0) q ub_fts p g Logic.I P) as (sc & pr & Ps & _).
  destruct (explore_policy false 1 w1' (@KGreedy RF 0) q' ub_fts p' g' Logic.I P') as (sc' & pr' & Ps' & _).
  exists w, w0, w', w0', c0, c0', q, q'. do 4 eexists. split; [exact E|]. split; [exact E'|]. do 7 (split; [eassumption|]). split; eassumption.
Qed.
