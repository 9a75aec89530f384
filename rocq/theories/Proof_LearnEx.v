(** C84: examples. *)
From Coq Require Import List NArith ZArith Bool Lia Reals Lra Permutation.
From Verif Require Import Base FloatOps FloatR Model_Hash Model_Features Model_Weights Model_Loss
  Model_Interactions Model_Types Model_Explore Model_Coin Model_Stack Model_Factory Spec_Features Spec_Weights Spec_Coin Spec_Stack Spec_Explore
  Spec_CbExplore Spec_Reductions Spec_Total Spec_Metrics Spec_OffPolicy Spec_Unbiased Spec_Learn
  Proof_Hash Proof_Weights Proof_WeightsProps Proof_Foreach Proof_FloatOrder Proof_StackRestore Proof_StackProps Proof_Reductions Proof_Total
  Proof_CbExplore Proof_Coin Proof_CoinR Proof_Regret Proof_Unbiased Proof_UnbiasedEx Proof_Learn Proof_LearnCb.
Import ListNotations.
Open Scope R_scope.

Definition lr_point (a : N) (c : R) : point RF := mkPt ub_fts (LbCb a (c : RF) ((/ 2 : R) : RF)) (PrProbs []).
Definition lr_log (lo hi : R) : list (point RF) := [lr_point 0 lo; lr_point 1 hi; lr_point 1 hi; lr_point 0 lo].
Definition lr_l0 : list (N * RF) := [(5%N, @f1 RF)].
Definition lr_l1 : list (N * RF) := [(6%N, @fl RF 2)].

Lemma lr_settled : forall lo hi, settled_costs ub_fts lo hi (lr_log lo hi).
Proof.
  intros lo hi p [<-|[<-|[<-|[<-|[]]]]]; (split; [reflexivity|]); do 3 eexists; (split; [reflexivity|]); (split; [apply Rinv_0_lt_compat; lra|]); auto.
Qed.
Lemma lr_twice : forall lo hi, drawn_twice 0 (lr_log lo hi) /\ drawn_twice 1 (lr_log lo hi).
Proof.
  intros lo hi. split.
  - exists [], (lr_point 0 lo), [lr_point 1 hi; lr_point 1 hi], (lr_point 0 lo), []. split; [reflexivity|]. split; do 2 eexists; reflexivity.
  - exists [lr_point 0 lo], (lr_point 1 hi), [], (lr_point 1 hi), [lr_point 0 lo]. split; [reflexivity|]. split; do 2 eexists; reflexivity.
Qed.
Lemma lr_own : own_features lr_l0 lr_l0 lr_l1 /\ own_features lr_l1 lr_l1 lr_l0.
Proof.
  unfold lr_l0, lr_l1. rewrite RF_f1, RF_fl. split; split.
  - intros i v [K|[]]. inversion K; subst. split; [lra|]. split; [intros v' [J|[]]; inversion J|]. intros v' [J|[]]; inversion J. lra.
  - exists 5%N, 1, 1. split; [now left|]. split; [lra|]. split; [now left|lra].
  - intros i v [K|[]]. inversion K; subst. split; [lra|]. split; [intros v' [J|[]]; inversion J|]. intros v' [J|[]]; inversion J. lra.
  - exists 6%N, 2, 2. split; [now left|]. split; [lra|]. split; [now left|lra].
Qed.
Lemma lr_below : Forall (below 16) (seen_mtr ub_fts) /\ Forall (below 16) (seen_ips ub_fts).
Proof.
  split; apply Forall_forall; intros s Hs i v Hin; cbn in Hs; destruct Hs as [<-|[<-|[]]]; cbn in Hin; destruct Hin as [K|[]]; inversion K; reflexivity.
Qed.

Lemma lr_new : exists w w0 (c0 : coin RF),
  ws_new ex_hash false gc16n (CCbAdf Mtr (CCoin (@coin_default RF))) = Ok (existT (red RF) 1%nat (w, KCbAdf Mtr 0 0, (w0, c0))) /\
  coin_new ex_hash false (@coin_default RF) gc16n 1 = Ok c0 /\
  (td_in_feats (w_types w) = feat_type_of ub_fts /\ td_out_pred (w_types w) <> PTProbs /\ forall a c p, td_in_label (w_types w) = label_type_of (@LbCb RF a c p)) /\
  mapm (coin_feats false c0) (seen_mtr ub_fts) = Ok [lr_l0; lr_l1] /\
  mapm (coin_feats false c0) (seen_ips ub_fts) = Ok [lr_l0; lr_l1].
Proof.
  unfold ws_new. cbn [create]. unfold coin_new. cbn [bind]. destruct (@dw_new_ok RF false 16 1 6) as (w & E & _); try lia.
  cbn [gc_inter gc16n gc_seed compile_interactions bind].
  change (bits_to_max_feature_index false (gc_bits gc16n)) with (Ok 16%N : out N). cbn [bind cc_loss coin_default].
  rewrite E. cbn [bind]. do 3 eexists. split; [reflexivity|]. split; [reflexivity|]. split; [split; [reflexivity|split; [discriminate|reflexivity]]|]. split; reflexivity.
Qed.
Lemma lr_gt : f_gtb (@f1 RF) f0 = true.
Proof. unfold f_gtb. rewrite RF_f0, RF_f1. cbn [f_ltb RF]. destruct (Rltb_spec 0 1); auto; lra. Qed.
Lemma lr_se : forall v : RF, f_isnan RF v = false -> f_eqb RF v v = true.
Proof. intros v _. cbn [f_eqb RF]. destruct (Reqb_spec v v); auto; congruence. Qed.

(** any new stack without element-wise interactions that takes bandit examples learns the log and predicts *)
Lemma lr_taught : forall cfg (R0 : anyred RF), ws_new ex_hash false gc16n cfg = Ok R0 -> uses_elem (projT2 R0) = false ->
  td_in_feats (red_types (projT2 R0)) = feat_type_of ub_fts -> (forall a c p, td_in_label (red_types (projT2 R0)) = label_type_of (@LbCb RF a c p)) ->
  forall l, (forall p, In p l -> exists a c q, p = mkPt ub_fts (@LbCb RF a c q) (PrProbs []) /\ (a < 2)%N) ->
  forall r, reach false (projT2 R0) r -> exists r', taught false r l r' /\ reach false (projT2 R0) r'.
Proof.
  intros cfg R0 E U Tf Tl. induction l as [|p l IH]; intros Hl r Q.
  - exists r. split; [constructor|auto].
  - destruct (Hl p (or_introl eq_refl)) as (a & c & q & -> & Ha).
    destruct (learn_returns (O := RF) RF_ford lr_gt lr_se ex_hash false gc16n cfg R0 r ub_fts (LbCb a c q) 16%N E Q) as (r1 & f1 & L & _);
      [exact U|reflexivity|apply ub_plain|apply ub_below|symmetry; exact Tf|symmetry; apply Tl| |discriminate|].
    { intros _. do 5 eexists. split; [reflexivity|]. split; [reflexivity|]. cbn [length]. lia. }
    destruct (IH (fun p Hp => Hl p (or_intror Hp)) r1) as (r' & T & Q'). { eapply reach_learn; eauto. }
    exists r'. split; auto. econstructor; [exact L|exact T].
Qed.

Lemma lr_example : forall lo hi, lo <= 0 <= hi -> lo < hi -> exists w w0 (c0 : coin RF) r p f',
  ws_new ex_hash false gc16n (CCbAdf Mtr (CCoin (@coin_default RF))) = Ok (existT (red RF) 1%nat (w, KCbAdf Mtr 0 0, (w0, c0))) /\
  coin_new ex_hash false (@coin_default RF) gc16n 1 = Ok c0 /\ 0 < (cc_alpha (@coin_default RF) : R) /\ lo <= lo0 (@coin_default RF) /\ hi0 (@coin_default RF) <= hi /\
  Forall (below 16) (seen_mtr ub_fts) /\ Forall (below 16) (seen_ips ub_fts) /\
  mapm (coin_feats false c0) (seen_mtr ub_fts) = Ok [lr_l0; lr_l1] /\ mapm (coin_feats false c0) (seen_ips ub_fts) = Ok [lr_l0; lr_l1] /\
  own_features lr_l0 lr_l0 lr_l1 /\ own_features lr_l1 lr_l1 lr_l0 /\
  settled_costs ub_fts lo hi (lr_log lo hi) /\ drawn_twice 0 (lr_log lo hi) /\ drawn_twice 1 (lr_log lo hi) /\ countable (lr_log lo hi) /\
  taught false ((w, KCbAdf Mtr 0 0, (w0, c0)) : red RF 1) (lr_log lo hi) r /\ ws_predict false r ub_fts = Ok (p, f').
Proof.
  intros lo hi Z Lt. destruct lr_new as (w & w0 & c0 & E & Ec & (Tf & Tp & Tl) & M1 & M2).
  set (R0 := existT (red RF) 1%nat (w, KCbAdf Mtr 0 0, (w0, c0))) in *.
  destruct (lr_taught _ R0 E eq_refl Tf Tl (lr_log lo hi)) with (r := projT2 R0) as (r & T & Q); [|apply reach_refl|].
  { intros p [<-|[<-|[<-|[<-|[]]]]]; do 3 eexists; (split; [reflexivity|lia]). }
  destruct (predict_returns (O := RF) RF_ford lr_se ex_hash false gc16n _ R0 r ub_fts 16%N E Q) as (p & f' & P & _);
    [reflexivity|reflexivity|reflexivity|apply ub_plain|apply ub_below|symmetry; exact Tf|intros K; exfalso; exact (Tp K)|discriminate|].
  exists w, w0, c0, r, p, f'. split; [exact E|]. split; [exact Ec|].
  split; [cbn [cc_alpha coin_default]; rewrite RF_fl; lra|]. split; [unfold lo0; cbn [cc_loss coin_default]; rewrite RF_f0; lra|].
  split; [unfold hi0; cbn [cc_loss coin_default]; rewrite RF_f0; lra|].
  split; [apply lr_below|]. split; [apply lr_below|]. split; [exact M1|]. split; [exact M2|]. split; [apply lr_own|]. split; [apply lr_own|].
  split; [apply lr_settled|]. split; [apply lr_twice|]. split; [apply lr_twice|]. split; [split; reflexivity|]. split; [exact T|exact P].
Qed.

Lemma lr_probs_new : forall eps : R, exists w1 w w0 (c0 : coin RF),
  ws_new ex_hash false gc16n (CGreedy eps (CCbAdf Mtr (CCoin (@coin_default RF)))) =
    Ok (existT (red RF) 2%nat (w1, KGreedy eps, ((w, KCbAdf Mtr 0 0, (w0, c0)) : red RF 1))) /\
  coin_new ex_hash false (@coin_default RF) gc16n 1 = Ok c0 /\
  (td_in_feats (w_types w1) = feat_type_of ub_fts /\ forall a c p, td_in_label (w_types w1) = label_type_of (@LbCb RF a c p)).
Proof.
  intros eps. unfold ws_new. cbn [create]. unfold coin_new. cbn [bind]. destruct (@dw_new_ok RF false 16 1 6) as (w & E & _); try lia.
  cbn [gc_inter gc16n gc_seed compile_interactions bind].
  change (bits_to_max_feature_index false (gc_bits gc16n)) with (Ok 16%N : out N). cbn [bind cc_loss coin_default].
  rewrite E. cbn [bind]. do 4 eexists. split; [reflexivity|]. split; [reflexivity|]. split; reflexivity.
Qed.
(** ... and with exploration on top *)
Lemma lr_probs_example : forall lo hi eps, lo <= 0 <= hi -> lo < hi -> 0 <= eps <= 1 -> exists w1 w w0 (c0 : coin RF) r p f',
  ws_new ex_hash false gc16n (CGreedy eps (CCbAdf Mtr (CCoin (@coin_default RF)))) =
    Ok (existT (red RF) 2%nat (w1, KGreedy eps, ((w, KCbAdf Mtr 0 0, (w0, c0)) : red RF 1))) /\
  coin_new ex_hash false (@coin_default RF) gc16n 1 = Ok c0 /\ sensible (@KGreedy RF eps) /\
  taught false ((w1, KGreedy eps, ((w, KCbAdf Mtr 0 0, (w0, c0)) : red RF 1)) : red RF 2) (lr_log lo hi) r /\ ws_predict false r ub_fts = Ok (p, f').
Proof.
  intros lo hi eps Z Lt He. destruct (lr_probs_new eps) as (w1 & w & w0 & c0 & E & Ec & (Tf & Tl)).
  set (R0 := existT (red RF) 2%nat (w1, KGreedy eps, ((w, KCbAdf Mtr 0 0, (w0, c0)) : red RF 1))) in *.
  destruct (lr_taught _ R0 E eq_refl Tf Tl (lr_log lo hi)) with (r := projT2 R0) as (r & T & Q); [|apply reach_refl|].
  { intros p [<-|[<-|[<-|[<-|[]]]]]; do 3 eexists; (split; [reflexivity|lia]). }
  destruct (predict_returns (O := RF) RF_ford lr_se ex_hash false gc16n _ R0 r ub_fts 16%N E Q) as (p & f' & P & _);
    [reflexivity|reflexivity|reflexivity|apply ub_plain|apply ub_below|symmetry; exact Tf|intros _; discriminate|discriminate|].
  exists w1, w, w0, c0, r, p, f'. split; [exact E|]. split; [exact Ec|]. split; [exact He|]. split; [exact T|exact P].
Qed.
Lemma lr_coin_example : forall lo hi, lo <= 0 <= hi -> lo < hi -> exists c0 : coin RF,
  coin_new ex_hash false (@coin_default RF) gc16n 1 = Ok c0 /\
  let h := mtr_examples 0 0 (lr_log lo hi) in
  Forall (fine 16 lo hi) h /\ actions_apart false c0 h lo hi ub_fts 0 1 lr_l0 lr_l1 /\
  told_apart false c0 h lo hi lr_l0 lr_l1 lr_l0 lr_l1 /\ only_with false c0 h 5 lo /\ only_with false c0 h 6 hi /\
  (some_noticed false c0 h lr_l0 \/ some_noticed false c0 h lr_l1).
Proof.
  intros lo hi Z Lt. destruct lr_new as (w & w0 & c0 & E & Ec & _ & M1 & M2). exists c0. split; [exact Ec|]. intros h.
  assert (L0 : lo <= lo0 (@coin_default RF)) by (unfold lo0; cbn [cc_loss coin_default]; rewrite RF_f0; lra).
  assert (L1 : hi0 (@coin_default RF) <= hi) by (unfold hi0; cbn [cc_loss coin_default]; rewrite RF_f0; lra).
  destruct (two_apart false (@coin_default RF) 16%N c0 lo hi (lr_log lo hi) (ub_store 0%nat) (ub_store 1%nat) (ub_store 2%nat) lr_l0 lr_l1 lr_l0 lr_l1 [] lr_l0 lr_l1
    L0 L1 Lt (proj1 lr_below) M1 M2 (Permutation_refl _) (Permutation_refl _) (proj1 lr_own) (proj2 lr_own) (lr_settled lo hi)
    (proj1 (lr_twice lo hi)) (proj2 (lr_twice lo hi))) as (Fi & Ap & No).
  fold ub_fts in Ap. fold h in Fi, Ap, No. split; [exact Fi|]. split; [exact Ap|].
  assert (Ta : told_apart false c0 h lo hi lr_l0 lr_l1 lr_l0 lr_l1).
  { destruct Ap as (fi & fj & lf & lg & N0 & N1 & E0 & E1 & Ta).
    assert (M2' : lf = lr_l0 /\ lg = lr_l1).
    { change (seen_ips ub_fts) with [joined_to (ub_store 1%nat) (ub_store 0%nat); joined_to (ub_store 2%nat) (ub_store 0%nat)] in *.
      cbn [nth_error] in N0, N1. inversion N0; subst fi. inversion N1; subst fj. cbn [mapm] in M2. rewrite E0, E1 in M2. cbn [bind] in M2. inversion M2. auto. }
    destruct M2' as (-> & ->). exact Ta. }
  split; [exact Ta|]. destruct Ta as (_ & T0 & T1). split; [apply (T0 5%N f1); now left|]. split; [apply (T1 6%N (fl 2)); now left|exact No].
Qed.
