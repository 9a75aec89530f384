(** C82: the workspace, and a family of runs. *)
From Coq Require Import List NArith ZArith Bool Lia Reals Lra.
From Verif Require Import Base FloatOps FloatR Model_Hash Model_Features Model_Weights Model_Loss
  Model_Interactions Model_Types Model_Explore Model_Coin Model_Stack Model_Factory Proof_Weights Proof_WeightsProps Spec_Coin Spec_Regret Proof_CoinR
  Proof_StackProps Proof_Lag Spec_Fit Proof_Fit.
Import ListNotations.
Open Scope R_scope.

Lemma depth_0 : forall nmb, exists d, depth_inc false 0 nmb 0 = Ok d /\ depth_dec false d nmb 0 = Ok 0%N.
Proof. intros nmb. exists 0%N. unfold depth_inc, depth_dec, u8_mul. rewrite N.mul_0_r. split; reflexivity. Qed.
Lemma ws_fit_same : forall w h (c : coin RF) r, fit_loss false h c = Ok r -> ws_fit_loss (n := 0) h ((w, c) : red RF 0) = Ok r.
Proof.
  intros w h. induction h as [|e h IH]; intros c r E; cbn [fit_loss ws_fit_loss] in *; auto.
  apply bind_ok in E. destruct E as (c' & E1 & E). apply bind_ok in E. destruct E as (p & E2 & E). destruct p as [q raw| | |]; try discriminate.
  apply bind_ok in E. destruct E as (s & E3 & E). destruct (depth_0 (w_below w)) as (d & D1 & D2).
  unfold ws_learn, ws_predict. cbn [learn predict]. unfold wrap at 1. rewrite D1. cbn [bind]. unfold coin_learn_body. cbn [as_simple as_simple_label bind fst snd].
  rewrite E1. cbn [bind]. rewrite D2. cbn [bind andb fst snd]. unfold wrap. rewrite D1. cbn [bind]. unfold coin_predict_body. cbn [as_simple bind].
  rewrite E2. cbn [bind]. rewrite D2. cbn [bind andb fst snd]. rewrite (IH _ _ E3). exact E.
Qed.

Lemma ws_fit_limit : forall H (cfg : coin_config RF) gc n (c0 : coin RF) R0 idx xi xmax lo hi wmin wmax k m u eps,
  ws_new H false gc (CCoin cfg) = Ok R0 -> coin_new H false cfg gc 1 = Ok c0 ->
  bits_to_max_feature_index false (gc_bits gc) = Ok n ->
  0 < (cc_alpha cfg : R) -> 0 < (cc_beta cfg : R) -> 0 < xi <= xmax -> cc_link cfg = LinkIdentity ->
  lo <= lo0 cfg -> hi0 cfg <= hi -> 2 * (hi - lo) * wmax <= cc_beta cfg -> 0 < wmin <= wmax -> (0 < k)%nat -> (forall i, 0 < m i) ->
  NoDup idx -> Forall (fun i => (i < n)%N) idx -> 0 < eps ->
  exists t0, forall h ls, (t0 <= length h)%nat ->
    Forall (fun e => tame false c0 n idx xi xmax lo hi wmax e /\ wmin <= ex_w e) h -> Forall2 (regular false c0 k m) h ls ->
    exists r, ws_fit_loss h (projT2 R0) = Ok r /\ r <= linear_loss u h ls + eps * INR (length h).
Proof.
  intros H cfg gc n c0 R0 idx xi xmax lo hi wmin wmax k m u eps En Ec Hb A B X Lk Hlo Hhi Hr Pw Pk Pm Ni Bi Pe.
  destruct (fit_limit H false cfg gc 1%N n c0 idx xi xmax lo hi wmin wmax k m u eps) as (t0 & Q); auto; [lia|].
  exists t0. intros h ls L T Rg. destruct (Q h ls L T Rg) as (r & Er & Lr). exists r. split; auto.
  unfold ws_new in En. cbn [create] in En. rewrite Ec in En. cbn [bind] in En. inversion En. cbn [projT1 projT2]. now apply ws_fit_same.
Qed.

Definition fit_h (t : nat) : list (example RF) := repeat (mkEx (two RF) f1 f1) t.
Definition fit_ls (t : nat) : list (list (N * RF)) := repeat [(5%N, @f1 RF); (6%N, @fl RF 2)] t.
Definition fit_m (i : N) : R := if (i =? 6)%N then 2 else 1.
Definition fit_u (i : N) : R := if (i =? 5)%N then 1 else 0.
(** any number of copies of one example, which the weight 1 for its first feature predicts exactly *)
Lemma ex_fit : forall t : nat, exists c0 : coin RF,
  coin_new ex_hash false cfg2 gc16n 1 = Ok c0 /\ (exists R0, ws_new ex_hash false gc16n (CCoin cfg2) = Ok R0) /\
  bits_to_max_feature_index false (gc_bits gc16n) = Ok 16%N /\
  0 < (cc_alpha cfg2 : R) /\ 0 < (cc_beta cfg2 : R) /\ cc_link cfg2 = LinkIdentity /\ 0 <= lo0 cfg2 /\ hi0 cfg2 <= 1 /\ 2 * (1 - 0) * 1 <= cc_beta cfg2 /\
  NoDup [5%N; 6%N] /\ Forall (fun i => (i < 16)%N) [5%N; 6%N] /\ 
  (forall i, 0 < fit_m i) /\ length (fit_h t) = t /\
  Forall (fun e => tame false c0 16 [5%N; 6%N] 1 2 0 1 1 e /\ 1 <= ex_w e) (fit_h t) /\ Forall2 (regular false c0 2 fit_m) (fit_h t) (fit_ls t) /\
  linear_loss fit_u (fit_h t) (fit_ls t) = 0.
Proof.
  intros t. unfold ws_new. cbn [create]. unfold coin_new. cbn [bind]. destruct (@dw_new_ok RF false 16 1 6) as (w & E & _); try lia.
  eexists. split.
  { cbn [gc_inter gc16n gc_seed compile_interactions bind].
    change (bits_to_max_feature_index false (gc_bits gc16n)) with (Ok 16%N : out N). cbn [bind cc_loss cfg2].
    rewrite E. cbn [bind]. reflexivity. }
  split.
  { eexists. cbn [gc_inter gc16n gc_seed compile_interactions bind].
    change (bits_to_max_feature_index false (gc_bits gc16n)) with (Ok 16%N : out N). cbn [bind cc_loss cfg2].
    rewrite E. cbn [bind]. reflexivity. }
  split; [reflexivity|]. cbn [cc_alpha cc_beta cfg2]. unfold lo0, hi0. cbn [cc_loss cfg2]. rewrite !RF_fl, RF_f0.
  split; [lra|]. split; [lra|]. split; [reflexivity|]. do 3 (split; [lra|]).
  split; [repeat constructor; cbn [In]; intros K; repeat (destruct K as [K|K]; [discriminate|]); contradiction|].
  split; [repeat constructor|].
  assert (A1 : Rabs 1 = 1) by (apply Rabs_right; lra). assert (A2 : Rabs 2 = 2) by (apply Rabs_right; lra).
  set (c0 := mkCoin _ _ _ _ _ _ _ _ _ _ _).
  assert (F2 : coin_feats false c0 (two RF) = Ok [(5%N, @f1 RF); (6%N, @fl RF 2)]) by reflexivity.
  clearbody c0.
  assert (T2 : tame false c0 16 [5%N; 6%N] 1 2 0 1 1 (mkEx (two RF) f1 f1)).
  { split; [apply ex_below|]. cbn [ex_y ex_w ex_f]. rewrite RF_f1. split; [lra|]. split; [lra|]. eexists. split; [exact F2|].
    split; [repeat constructor; cbn [In map fst]; intros K; repeat (destruct K as [K|K]; [discriminate|]); contradiction|].
    intros i v [K|[K|[]]]; inversion K; subst; (split; [cbn [In]; auto|]); unfold Rdiv; rewrite ?Rinv_1, ?Rmult_1_r, ?A1, ?A2; (split; [right|]); lra. }
  split; [intros i; unfold fit_m; destruct (i =? 6)%N; lra|]. split; [apply repeat_length|].
  split. { apply Forall_forall. intros e He. apply repeat_spec in He. subst. split; [exact T2|]. cbn [ex_w]. rewrite RF_f1. lra. }
  split.
  { unfold fit_h, fit_ls. induction t; cbn [repeat]; constructor; auto. split; [exact F2|]. split; [reflexivity|].
    intros i v [K|[K|[]]]; inversion K; subst; unfold fit_m; cbn [N.eqb Pos.eqb]; unfold Rdiv; rewrite ?Rinv_1, ?Rmult_1_r; auto. }
  unfold fit_h, fit_ls. clear. induction t; cbn [repeat linear_loss]; auto. rewrite IHt. unfold dot. cbn [fold_right fst snd ex_y ex_w]. 
  unfold fit_u. cbn [N.eqb Pos.eqb]. rewrite RF_f1, RF_fl. lra.
Qed.
