(** The regret vanishes on average (C67), and prediction lags behind learning (C66). *)
From Coq Require Import List NArith ZArith Bool Lia Reals Lra SpecFloat.
From Verif Require Import Base FloatOps FloatR FloatB32 Model_Hash Model_Features Model_Weights Model_Loss
  Model_Interactions Model_Types Model_Coin Model_Stack Model_Factory Proof_Hash Proof_Weights Spec_Weights Proof_WeightsProps
  Proof_Foreach Proof_FloatOrder Spec_Coin Spec_Stack Proof_StackProps Spec_Regret Proof_Coin Proof_CoinR Proof_Betting Proof_Bettor Proof_Regret.
Import ListNotations.
Open Scope R_scope.

Lemma ln_sqrt : forall y, 1 <= y -> ln y <= 2 * sqrt y.
Proof.
  intros y Y. assert (S1 : 0 < sqrt y) by (apply sqrt_lt_R0; lra).
  assert (E : ln y = 2 * ln (sqrt y)). { rewrite <- (sqrt_sqrt y) at 1 by lra. rewrite ln_mult by auto. ring. }
  rewrite E. pose proof (ln_tangent (sqrt y) 1 S1 ltac:(lra)) as Q. rewrite ln_1 in Q. lra.
Qed.
Lemma nat_above : forall x, exists t : nat, x < INR t.
Proof.
  intros x. exists (Z.to_nat (up (Rmax x 0))). destruct (archimed (Rmax x 0)) as (A & _). pose proof (Rmax_l x 0). pose proof (Rmax_r x 0).
  rewrite INR_IZR_INZ, Z2Nat.id; [lra|]. apply le_IZR. lra.
Qed.
Lemma slow : forall alpha k0 k eps, 0 <= alpha -> 0 <= k0 -> 0 <= k -> 0 < eps ->
  exists t0 : nat, forall t : nat, (t0 <= t)%nat -> alpha + k0 * sqrt (2 * INR t * ln (1 + k * INR t * (INR t + 1))) <= eps * INR t.
Proof.
  intros alpha k0 k eps A K0 K E. set (m := ln (1 + k) + 8).
  assert (M : 0 < m). { unfold m. assert (0 <= ln (1 + k)); [|lra]. rewrite <- ln_1. apply ln_le. lra. }
  set (q := 8 * m * (k0 * k0) / (eps * eps)).
  assert (Q : 0 <= q) by (unfold q; apply div_nonneg; [apply Rmult_le_pos; [lra|nra]|nra]).
  set (x := 1 + 2 * alpha / eps + q * q).
  assert (X : 0 <= 2 * alpha / eps) by (apply div_nonneg; lra).
  destruct (nat_above x) as (t0 & H0). exists t0. intros t Ht.
  assert (T : x < INR t) by (apply Rlt_le_trans with (INR t0); auto; now apply le_INR).
  set (r := INR t) in *. assert (Rp : 1 <= r) by (unfold x in T; nra).
  assert (L : ln (1 + k * r * (r + 1)) <= m * sqrt r).
  { assert (L1 : ln (1 + k * r * (r + 1)) <= ln ((1 + k) * ((r + 1) * (r + 1)))) by (apply ln_le; split; [nra|nra]).
    rewrite ln_mult in L1 by nra. rewrite (ln_mult (r + 1)) in L1 by lra. pose proof (ln_sqrt (r + 1) ltac:(lra)) as L2.
    assert (L3 : sqrt (r + 1) <= 2 * sqrt r).
    { replace (2 * sqrt r) with (sqrt (4 * r)). { apply sqrt_le_1_alt. lra. }
      rewrite sqrt_mult_alt by lra. f_equal. replace 4 with (2 * 2) by ring. apply sqrt_square. lra. }
    assert (L4 : 1 <= sqrt r) by (rewrite <- sqrt_1; apply sqrt_le_1_alt; lra).
    assert (L5 : 0 <= ln (1 + k)) by (rewrite <- ln_1; apply ln_le; lra). unfold m. nra. }
  assert (B : k0 * sqrt (2 * r * ln (1 + k * r * (r + 1))) <= eps / 2 * r).
  { assert (Sq : q <= sqrt r).
    { rewrite <- (sqrt_square q) by auto. apply sqrt_le_1_alt. unfold x in T. lra. }
    assert (B1 : k0 * k0 * (2 * r * (m * sqrt r)) <= (eps / 2 * r) * (eps / 2 * r)).
    { assert (Z : 8 * m * (k0 * k0) <= sqrt r * (eps * eps)).
      { apply Rmult_le_compat_r with (r := eps * eps) in Sq; [|nra]. unfold q in Sq. unfold Rdiv in Sq. rewrite Rmult_assoc, Rinv_l in Sq by nra. lra. }
      pose proof (sqrt_pos r) as P. pose proof (sqrt_sqrt r ltac:(lra)) as P2.
      apply Rmult_le_compat_r with (r := r * sqrt r) in Z; [|nra].
      replace (sqrt r * (eps * eps) * (r * sqrt r)) with (eps * eps * r * (sqrt r * sqrt r)) in Z by ring. rewrite P2 in Z. nra. }
    assert (P0 : 0 <= ln (1 + k * r * (r + 1))) by (rewrite <- ln_1; apply ln_le; split; [lra|nra]).
    apply Rsqr_incr_0_var; [|nra]. unfold Rsqr.
    replace (k0 * sqrt (2 * r * ln (1 + k * r * (r + 1))) * (k0 * sqrt (2 * r * ln (1 + k * r * (r + 1)))))
      with (k0 * k0 * (sqrt (2 * r * ln (1 + k * r * (r + 1))) * sqrt (2 * r * ln (1 + k * r * (r + 1))))) by ring.
    rewrite sqrt_sqrt by nra. eapply Rle_trans; [|exact B1]. apply Rmult_le_compat_l; [nra|]. apply Rmult_le_compat_l; [lra|auto]. }
  assert (C : alpha <= eps / 2 * r).
  { assert (Z : 2 * alpha / eps <= r) by (unfold x in T; nra).
    apply Rmult_le_compat_r with (r := eps) in Z; [|lra]. unfold Rdiv in Z. rewrite Rmult_assoc, Rinv_l in Z by lra. lra. }
  lra.
Qed.
Lemma slow_sum : forall (f : N -> R -> R) idx eps, 0 < eps ->
  (forall i e, 0 < e -> exists t0 : nat, forall t : nat, (t0 <= t)%nat -> f i (INR t) <= e * INR t) ->
  exists t0 : nat, forall t : nat, (t0 <= t)%nat -> sum_of (fun i => f i (INR t)) idx <= eps * INR t.
Proof.
  intros f idx. induction idx as [|i idx IH]; intros eps E H.
  - exists 0%nat. intros t _. cbn [sum_of fold_right]. pose proof (pos_INR t). nra.
  - destruct (H i (eps / 2) ltac:(lra)) as (t1 & H1). destruct (IH (eps / 2) ltac:(lra) H) as (t2 & H2).
    exists (Nat.max t1 t2). intros t Ht. pose proof (H1 t ltac:(lia)). pose proof (H2 t ltac:(lia)). cbn [sum_of fold_right]. unfold sum_of in *. lra.
Qed.
Lemma no_regret_main : forall H dbg (cfg : coin_config RF) gc nma n (c0 : coin RF) idx xi xmax lo hi wmax u eps,
  coin_new H dbg cfg gc nma = Ok c0 -> (0 < nma < 2 ^ 8)%N ->
  bits_to_max_feature_index dbg (gc_bits gc) = Ok n ->
  0 < (cc_alpha cfg : R) -> 0 < (cc_beta cfg : R) -> 0 < xi <= xmax ->
  lo <= lo0 cfg -> hi0 cfg <= hi -> 2 * (hi - lo) * wmax <= cc_beta cfg ->
  NoDup idx -> Forall (fun i => (i < n)%N) idx -> 0 < eps ->
  exists t0, forall h, Forall (tame dbg c0 n idx xi xmax lo hi wmax) h -> (t0 <= length h)%nat ->
    exists r, excess dbg u h c0 = Ok r /\ r <= eps * INR (length h).
Proof.
  intros H dbg cfg gc nma n c0 idx xi xmax lo hi wmax u eps E Hn Hb A B X Hlo Hhi Hr Ni Bi He.
  destruct (slow_sum (fun i t => cc_alpha cfg + Rabs (u i) * (cc_beta cfg * xmax *
           sqrt (2 * t * ln (1 + exp 1 * Rabs (u i) * t * (t + 1) * (cc_beta cfg * (xmax * xmax)) / (cc_alpha cfg * xi))))) idx eps He) as (t0 & H0).
  { intros i e Ee. pose proof (Rabs_pos (u i)) as Pu. pose proof (exp_pos 1) as Pe.
    assert (Pb : 0 <= cc_beta cfg * xmax) by (apply Rmult_le_pos; lra).
    destruct (slow (cc_alpha cfg) (Rabs (u i) * (cc_beta cfg * xmax)) (exp 1 * Rabs (u i) * (cc_beta cfg * (xmax * xmax)) / (cc_alpha cfg * xi)) e) as (t0 & H0); auto.
    - lra.
    - apply Rmult_le_pos; auto.
    - apply div_nonneg; [|apply Rmult_lt_0_compat; lra]. apply Rmult_le_pos; [apply Rmult_le_pos; lra|]. apply Rmult_le_pos; [lra|nra].
    - exists t0. intros t Ht. pose proof (H0 t Ht) as Q.
      replace (exp 1 * Rabs (u i) * INR t * (INR t + 1) * (cc_beta cfg * (xmax * xmax)) / (cc_alpha cfg * xi))
        with (exp 1 * Rabs (u i) * (cc_beta cfg * (xmax * xmax)) / (cc_alpha cfg * xi) * INR t * (INR t + 1)) by (field; split; lra).
      rewrite <- Rmult_assoc. exact Q. }
  exists t0. intros h T L. destruct (regret_main H dbg cfg gc nma n c0 idx xi xmax lo hi wmax h u) as (r & Er & Lr); auto.
  exists r. split; auto. eapply Rle_trans; [exact Lr|]. now apply H0.
Qed.

(** *** prediction lags by one example *)
Lemma dot_zero : forall (l : list (N * RF)) (st : N -> list RF), (forall i v, In (i, v) l -> nth 0 (st i) f0 = (0 : R)) ->
  fold_left (fun acc iv => f_add RF acc (f_mul RF (snd iv) (nth 0 (st (fst iv)) f0))) l f0 = (0 : R).
Proof.
  intros l st. rewrite RF_f0. induction l as [|[i v] l IH]; intros H; cbn [fold_left fst snd]; auto.
  rewrite (H i v) by now left. cbn [f_add f_mul RF]. replace (0 + v * 0) with 0 by ring. apply IH. intros; eapply H; right; eauto.
Qed.
Lemma first_ignored : forall H dbg (cfg : coin_config RF) gc nma n (c0 : coin RF) e l,
  coin_new H dbg cfg gc nma = Ok c0 -> (0 < nma < 2 ^ 8)%N -> bits_to_max_feature_index dbg (gc_bits gc) = Ok n ->
  below n (ex_f e) -> coin_feats dbg c0 (ex_f e) = Ok l -> NoDup (map fst l) ->
  exists c, coin_learn dbg c0 (ex_f e) (ex_y e) (ex_w e) = Ok c /\
    forall f, below n f -> exists q, coin_predict dbg c f = Ok (PrScalar q (0 : R)).
Proof.
  intros H dbg cfg gc nma n c0 e l E Hn Hb Be El Nl.
  destruct (coin_new_wf _ _ _ _ _ _ E Hn) as (W & B & _ & _ & C & _ & Z0).
  rewrite Hb in B. inversion B; subst n; clear B.
  pose proof (cinv_init RF_ford _ _ _ _ _ _ E Hn) as I0.
  destruct (cinv_step RF_ford dbg c0 [] c0 e I0 Be) as (c1 & E1 & I1). exists c1. split; auto.
  destruct (learn_ok dbg c0 (ex_f e) (ex_y e) (ex_w e) W Be (range_step RF_ford _ _ (ci_range _ _ _ _ I0)))
    as (c' & l' & p & cb & up & E' & W' & El' & Ep & Eu & M1 & M2 & C1 & C2 & C3 & C4 & C5 & C6 & S' & Rd).
  rewrite E1 in E'. inversion E'; subst c'; clear E'. rewrite El in El'. inversion El'; subst l'; clear El'.
  intros f Bf. assert (Fs : dw_fsize (co_w c1) = dw_fsize (co_w c0)) by apply S'.
  assert (Bf' : below (dw_fsize (co_w c1)) f) by now rewrite Fs.
  unfold coin_predict. destruct (feats_ok dbg c1 f W' Bf') as (k & Ek & Bk). rewrite Ek. cbn [bind].
  rewrite (dot_ok dbg c1 k W' Bk). cbn [bind]. rewrite (dot_zero k (fun i => read (co_w c1) i 0)).
  - cbn [f_isnan RF]. pose proof (ci_range _ _ _ _ I1) as Q. unfold f_clamp. rewrite Q. cbn [bind]. eexists. reflexivity.
  - intros i v Hi. apply Bk in Hi. rewrite Fs in Hi. rewrite Rd by auto.
    destruct (fresh_state _ _ _ _ _ _ _ E Hn Hi) as (L0 & F0).
    destruct (in_dec N.eq_dec i (map fst l)) as [J|J].
    + apply in_map_iff in J. destruct J as ([j x] & Q & J). cbn [fst] in Q. subst j. apply in_split in J. destruct J as (l1 & l2 & ->).
      rewrite (fold_once _ (fun st x => iu (co_cfg c0) (co_avg cb) up x st)).
      * destruct (iu_real (co_cfg c0) (co_avg cb) up x _ L0) as (_ & _ & _ & _ & _ & _ & Ex).
        unfold fld at 1 in Ex. unfold sg, W_XT in Ex. rewrite Ex. unfold bet, W_ZT. rewrite (F0 1%nat) by lia.
        unfold Rdiv. rewrite Rmult_0_r. destruct (Rltb 0 _); apply Rmult_0_l.
      * rewrite map_app in Nl. cbn [map fst] in Nl. apply NoDup_remove_2 in Nl. rewrite <- map_app in Nl.
        intros y Hy. apply Nl. apply in_map_iff. now exists (i, y).
    + rewrite (fold_skip _ (fun st x => iu (co_cfg c0) (co_avg cb) up x st)).
      * exact (F0 0%nat ltac:(lia)).
      * intros y Hy. apply J. apply in_map_iff. now exists (i, y).
Qed.
(** after one example at label one, the next learning round announces nearly one, [predict] says zero *)
Lemma lag_witness : forall e l p, let O := BF e l p in
  exists c0 c pr cb q raw,
    coin_new ex_hash true (@coin_default O) gc16n 1 = Ok c0 /\
    coin_learn true c0 (other O) f1 f1 = Ok c /\
    coin_betting_predict true (coin_range c f1) (other O) f1 = Ok (pr, cb) /\
    coin_predict true c (other O) = Ok (PrScalar q raw) /\
    f_eqb O q f0 = true /\ f_ltb O (f_lit O 9 10) pr = true.
Proof.
  intros e l p O.
  assert (C : match coin_new ex_hash true (@coin_default O) gc16n 1 with
    | Ok c0 => match coin_learn true c0 (other O) f1 f1 with
      | Ok c => match coin_betting_predict true (coin_range c f1) (other O) f1 with
        | Ok (pr, cb) => match coin_predict true c (other O) with
           | Ok (PrScalar q raw) => f_eqb O q f0 && f_ltb O (f_lit O 9 10) pr | _ => false end
        | _ => false end
      | _ => false end
    | _ => false end = true) by (vm_compute; reflexivity).
  destruct (coin_new ex_hash true (@coin_default O) gc16n 1) as [c0|x|x]; try discriminate. exists c0.
  destruct (coin_learn true c0 (other O) f1 f1) as [c|x|x] eqn:E1; try discriminate. exists c.
  destruct (coin_betting_predict true (coin_range c f1) (other O) f1) as [[pr cb]|x|x] eqn:E2; try discriminate. exists pr, cb.
  destruct (coin_predict true c (other O)) as [[q raw| | |]|x|x] eqn:E3; try discriminate. exists q, raw.
  apply andb_prop in C. destruct C. auto 10.
Qed.
Lemma lag_refuted : forall ex lx px, let O := BF ex lx px in
  ~ (forall H dbg (cfg : coin_config O) gc nma c0 f y w c pr cb,
       coin_new H dbg cfg gc nma = Ok c0 -> coin_learn dbg c0 f y w = Ok c ->
       coin_betting_predict dbg (coin_range c y) f w = Ok (pr, cb) ->
       exists q raw, coin_predict dbg c f = Ok (PrScalar q raw) /\ f_eqb O q pr = true).
Proof.
  intros ex lx px O K.
  assert (C : match coin_new ex_hash true (@coin_default O) gc16n 1 with
    | Ok c0 => match coin_learn true c0 (other O) f1 f1 with
      | Ok c => match coin_betting_predict true (coin_range c f1) (other O) f1 with
        | Ok (pr, cb) => match coin_predict true c (other O) with
           | Ok (PrScalar q raw) => negb (f_eqb O q pr) | _ => false end
        | _ => false end
      | _ => false end
    | _ => false end = true) by (vm_compute; reflexivity).
  destruct (coin_new ex_hash true (@coin_default O) gc16n 1) as [c0|x|x] eqn:E0; try discriminate.
  destruct (coin_learn true c0 (other O) f1 f1) as [c|x|x] eqn:E1; try discriminate.
  destruct (coin_betting_predict true (coin_range c f1) (other O) f1) as [[pr cb]|x|x] eqn:E2; try discriminate.
  destruct (K _ _ _ _ _ _ _ _ _ _ _ _ E0 E1 E2) as (q & raw & E3 & E4). rewrite E3, E4 in C. discriminate.
Qed.

(** *** a concrete run *)
Definition cfg2 : coin_config RF := mkCoinCfg (fl 4) (fl 2) f0 f0 LossSquared LinkIdentity.
Definition run2 : list (example RF) := [mkEx (two RF) f1 f1; mkEx (other RF) f0 f1; mkEx (two RF) f1 f1].
Lemma ex_regret : exists c0 : coin RF,
  coin_new ex_hash true cfg2 gc16n 1 = Ok c0 /\ bits_to_max_feature_index true (gc_bits gc16n) = Ok 16%N /\
  0 < (cc_alpha cfg2 : R) /\ 0 < (cc_beta cfg2 : R) /\ 0 <= lo0 cfg2 /\ hi0 cfg2 <= 1 /\ 2 * (1 - 0) * 1 <= cc_beta cfg2 /\
  NoDup [5%N; 6%N; 9%N] /\ Forall (fun i => (i < 16)%N) [5%N; 6%N; 9%N] /\
  Forall (tame true c0 16 [5%N; 6%N; 9%N] 1 2 0 1 1) run2 /\ Forall (resolved true c0 1) run2.
Proof.
  unfold coin_new. cbn [bind]. destruct (@dw_new_ok RF true 16 1 6) as (w & E & _); try lia.
  eexists. split.
  { cbn [gc_inter gc16n gc_seed compile_interactions bind].
    change (bits_to_max_feature_index true (gc_bits gc16n)) with (Ok 16%N : out N). cbn [bind cc_loss cfg2].
    rewrite E. cbn [bind]. reflexivity. }
  split; [reflexivity|]. cbn [cc_alpha cc_beta cfg2]. unfold lo0, hi0. cbn [cc_loss cfg2]. rewrite !RF_fl, RF_f0.
  repeat (split; [lra|]).
  split; [repeat constructor; cbn [In]; intros K; repeat (destruct K as [K|K]; [discriminate|]); contradiction|].
  split; [repeat constructor|].
  assert (A1 : Rabs 1 = 1) by (apply Rabs_right; lra). assert (A2 : Rabs 2 = 2) by (apply Rabs_right; lra).
  set (c0 := mkCoin _ _ _ _ _ _ _ _ _ _ _).
  assert (F2 : coin_feats true c0 (two RF) = Ok [(5%N, @f1 RF); (6%N, @fl RF 2)]) by reflexivity.
  assert (F1 : coin_feats true c0 (other RF) = Ok [(9%N, @f1 RF)]) by reflexivity.
  clearbody c0.
  assert (T2 : tame true c0 16 [5%N; 6%N; 9%N] 1 2 0 1 1 (mkEx (two RF) f1 f1)).
  { split; [apply ex_below|]. cbn [ex_y ex_w ex_f]. rewrite RF_f1. split; [lra|]. split; [lra|]. eexists. split; [exact F2|].
    split; [repeat constructor; cbn [In map fst]; intros K; repeat (destruct K as [K|K]; [discriminate|]); contradiction|].
    intros i v [K|[K|[]]]; inversion K; subst; (split; [cbn [In]; auto|]); unfold Rdiv; rewrite ?Rinv_1, ?Rmult_1_r, ?A1, ?A2; (split; [right|]); lra. }
  assert (T1 : tame true c0 16 [5%N; 6%N; 9%N] 1 2 0 1 1 (mkEx (other RF) f0 f1)).
  { split; [apply ex_below|]. cbn [ex_y ex_w ex_f]. rewrite RF_f1, RF_f0. split; [lra|]. split; [lra|]. eexists. split; [exact F1|].
    split; [repeat constructor; cbn [In map fst]; intros K; contradiction|].
    intros i v [K|[]]; inversion K; subst; (split; [cbn [In]; auto|]); unfold Rdiv; rewrite ?Rinv_1, ?Rmult_1_r, ?A1, ?A2; (split; [right|]); lra. }
  assert (Tm : Forall (tame true c0 16 [5%N; 6%N; 9%N] 1 2 0 1 1) run2) by (unfold run2; auto).
  split; [exact Tm|].
  assert (Q : forall e, tame true c0 16 [5%N; 6%N; 9%N] 1 2 0 1 1 e -> resolved true c0 1 e).
  { intros e (_ & _ & _ & l & El & _ & K) l' i v El' J. rewrite El in El'. inversion El'. subst. now apply (K i v). }
  exact (Forall_impl _ Q Tm).
Qed.
