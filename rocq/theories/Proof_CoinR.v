(** The coin regressor in exact arithmetic, and concrete cases. *)
From Coq Require Import List NArith ZArith Bool Lia Reals Lra SpecFloat.
From Verif Require Import Base FloatOps FloatR FloatB32 Model_Hash Model_Features Model_Weights Model_Loss
  Model_Interactions Model_Types Model_Coin Model_Stack Model_Factory Proof_Hash Proof_Weights Spec_Weights Proof_WeightsProps
  Proof_Foreach Proof_FloatOrder Spec_Coin Spec_Stack Proof_StackProps Proof_Coin.
Import ListNotations.
Open Scope N_scope.

Definition zg (st : list RF) : Prop :=
  length st = 6%nat /\ (0 <= (sg st W_G2 : R))%R /\ (Rabs (sg st W_ZT : R) <= (sg st W_G2 : R))%R.

Lemma iu_zg : forall cfg (avg u x : RF) st, zg st -> zg (iu cfg avg u x st).
Proof.
  intros cfg avg u x st (L & G & Z). destruct (iu_fields cfg avg u x st L) as (_ & _ & F3 & F4).
  split; [now apply iu_ok|]. rewrite F3, F4. cbn [f_add f_neg f_abs f_mul RF].
  pose proof (Rabs_pos (u * x)). pose proof (Rabs_triang (sg st W_ZT) (- (u * x))) as T.
  rewrite Rabs_Ropp in T. split.
  - apply Rplus_le_le_0_compat; auto.
  - eapply Rle_trans; [exact T|]. apply Rplus_le_compat_r. auto.
Qed.

Lemma fold_zg : forall cfg (avg u : RF) i l st, zg st ->
  zg (fold_left (fun st (iv : N * RF) => if fst iv =? i then iu cfg avg u (snd iv) st else st) l st).
Proof.
  intros cfg avg u i l. induction l as [|[j v] l IH]; intros st Z; cbn [fold_left fst snd]; auto.
  destruct (j =? i); auto. apply IH. now apply iu_zg.
Qed.

Lemma train_zg : forall dbg (c0 : coin RF) k h c, cinv dbg c0 h c ->
  Forall (fun e => below (dw_fsize (co_w c0)) (ex_f e)) k ->
  (forall i, i < dw_fsize (co_w c) -> zg (read (co_w c) i 0)) ->
  exists c', train dbg k c = Ok c' /\ cinv dbg c0 (h ++ k) c' /\
    (forall i, i < dw_fsize (co_w c') -> zg (read (co_w c') i 0)).
Proof.
  intros dbg c0 k. induction k as [|e k IH]; intros h c I B Z.
  - exists c. rewrite app_nil_r. split; [reflexivity|]. auto.
  - inversion B as [|? ? B1 B2]; subst.
    destruct (cinv_step RF_ford dbg c0 h c e I B1) as (c1 & E1 & I1).
    pose proof I as [W Sh R Mi Ma Cf Lo Fe].
    assert (Fs : dw_fsize (co_w c) = dw_fsize (co_w c0)) by apply Sh.
    assert (B' : below (dw_fsize (co_w c)) (ex_f e)) by now rewrite Fs.
    destruct (learn_ok dbg c (ex_f e) (ex_y e) (ex_w e) W B' (range_step RF_ford _ _ R))
      as (c' & l & p & cb & u & E' & W' & El & Ep & Eu & M1 & M2 & C1 & C2 & C3 & C4 & C5 & C6 & S' & Rd).
    rewrite E1 in E'. inversion E'; subst c'; clear E'.
    destruct (IH (h ++ [e]) c1 I1 B2) as (c2 & E2 & I2 & Z2).
    { intros i Hi. assert (Hi' : i < dw_fsize (co_w c)) by (destruct S' as (S' & _); now rewrite S' in Hi).
      rewrite Rd by auto. apply fold_zg. now apply Z. }
    exists c2. rewrite <- app_assoc in I2. split; [unfold train; cbn [foldm]; rewrite E1; exact E2|]. auto.
Qed.

Lemma accumulators_main : forall H dbg (cfg : coin_config RF) gc nma n (c0 : coin RF) h,
  coin_new H dbg cfg gc nma = Ok c0 -> 0 < nma < 2 ^ 8 ->
  bits_to_max_feature_index dbg (gc_bits gc) = Ok n ->
  Forall (fun e => below n (ex_f e)) h ->
  exists c, train dbg h c0 = Ok c /\
    forall i, i < n -> exists st, stored dbg c i = Ok st /\
      (0 <= (sg st W_G2 : R))%R /\ (Rabs (sg st W_ZT : R) <= (sg st W_G2 : R))%R.
Proof.
  intros H dbg cfg gc nma n c0 h E Hn Hb Bh.
  destruct (coin_new_wf _ _ _ _ _ _ E Hn) as (W & B & _ & _ & C & _ & Z0).
  rewrite Hb in B. inversion B; subst n; clear B.
  pose proof (cinv_init RF_ford _ _ _ _ _ _ E Hn) as I0.
  destruct (train_zg dbg c0 h [] c0 I0 Bh) as (c & Et & I & Z).
  { intros i Hi. rewrite (read_zeros _ _ _ (cw_wf _ _ W) Hi (cw_ms _ _ W) Z0), (cw_ss _ _ W).
    split; [reflexivity|]. change (sg (repeat (@f0 RF) (N.to_nat 6)) W_G2) with (@f0 RF).
    change (sg (repeat (@f0 RF) (N.to_nat 6)) W_ZT) with (@f0 RF). rewrite RF_f0, Rabs_R0. lra. }
  exists c. split; auto. intros i Hi.
  assert (Hc : i < dw_fsize (co_w c)) by (replace (dw_fsize (co_w c)) with (dw_fsize (co_w c0)); auto; symmetry; apply I).
  exists (read (co_w c) i 0). split; [apply (proj1 (read6 dbg c i (ci_wf _ _ _ _ I) Hc))|].
  now destruct (Z i Hc) as (_ & Z1 & Z2).
Qed.

(** ** concrete cases *)
Definition gc16 : gconfig := mkGc 4 0 true [].
(** two features, in any float record *)
Definition two (O : FOps) : sfeats O :=
  [(NsDefault, mkSfn NsDefault [5; 6] [@f1 O; @fl O 2] true)].
Definition other (O : FOps) : sfeats O :=
  [(NsNamed 3, mkSfn (NsNamed 3) [9] [@f1 O] true)].
Definition ex_run (O : FOps) : list (example O) :=
  [mkEx (two O) (fl 3) f1; mkEx (other O) (fl 1) (fl 2); mkEx (two O) (fl 2) f1].

Lemma ex_below : forall O, below 16 (two O) /\ below 16 (other O).
Proof.
  intros O. split; intros i v H; cbn in H;
  repeat (destruct H as [H|H]; [inversion H; subst; lia|]); contradiction.
Qed.

Lemma ex_coin : forall e l p, let O := BF e l p in
  exists c0 c v raw, coin_new ex_hash true (@coin_default O) gc16 1 = Ok c0 /\
  bits_to_max_feature_index true (gc_bits gc16) = Ok 16 /\
  Forall (fun e => below 16 (ex_f e)) (ex_run O) /\
  train true (ex_run O) c0 = Ok c /\ coin_predict true c (two O) = Ok (PrScalar v raw) /\
  f_ltb O f0 v = true /\ f_ltb O v (fl 3) = true.
Proof.
  intros e l p O.
  assert (C : match coin_new ex_hash true (@coin_default O) gc16 1 with
              | Ok c0 => match train true (ex_run O) c0 with
                | Ok c => match coin_predict true c (two O) with
                          | Ok (PrScalar v raw) => f_ltb O f0 v && f_ltb O v (fl 3) | _ => false end
                | _ => false end
              | _ => false end = true) by (vm_compute; reflexivity).
  destruct (coin_new ex_hash true (@coin_default O) gc16 1) as [c0|x|x]; try discriminate. exists c0.
  destruct (train true (ex_run O) c0) as [c|x|x]; try discriminate. exists c.
  destruct (coin_predict true c (two O)) as [[v raw| | |]|x|x]; try discriminate.
  exists v, raw. split; auto. split; [reflexivity|]. split.
  - repeat constructor; apply ex_below.
  - apply andb_prop in C. destruct C. auto.
Qed.

Lemma ex_coin_R : exists (c0 : coin RF),
  coin_new ex_hash true (@coin_default RF) gc16 1 = Ok c0 /\
  bits_to_max_feature_index true (gc_bits gc16) = Ok 16 /\
  f_isnan RF (cc_beta (@coin_default RF)) = false /\
  Forall (fun e => below 16 (ex_f e)) (ex_run RF).
Proof.
  unfold coin_new. cbn [bind].
  destruct (@dw_new_ok RF true 16 1 6) as (w & E & _); try lia.
  eexists. split; [|split; [reflexivity|split; [reflexivity|repeat constructor; apply ex_below]]].
  cbn [gc_inter gc16 gc_seed compile_interactions bind].
  change (bits_to_max_feature_index true (gc_bits gc16)) with (Ok 16 : out N). cbn [bind cc_loss coin_default].
  rewrite E. cbn [bind]. reflexivity.
Qed.

(** without constant feature the two examples share no index *)
Definition gc16n : gconfig := mkGc 4 0 false [].
Lemma ex_disjoint : forall (O : FOps), exists c0, coin_new ex_hash true (@coin_default O) gc16n 1 = Ok c0 /\
  (forall i, uses true c0 (two O) i -> ~ uses true c0 (other O) i).
Proof.
  intros O. eexists. split; [vm_compute; reflexivity|].
  intros i (l & v & E & H) (l' & v' & E' & H'). vm_compute in E, E'. inversion E; subst. inversion E'; subst.
  destruct H' as [H'|[]]. inversion H'; subst.
  repeat (destruct H as [H|H]; [inversion H|]). contradiction.
Qed.

(** ** C46: the configured loss is not used *)
Definition logistic_cfg (O : FOps) : coin_config O :=
  mkCoinCfg (fl 4) (fl 1) f0 f0 (LossLogistic (f_neg O f1) f1) LinkIdentity.
Lemma logistic_ignored : forall e l p, let O := BF e l p in
  e (S754_zero false) = @f1 O -> e (S754_zero true) = @f1 O ->
  exists c0 c' pr cb st',
    coin_new ex_hash true (logistic_cfg O) gc16n 1 = Ok c0 /\
    coin_betting_predict true (coin_range c0 f1) (other O) f1 = Ok (pr, cb) /\
    coin_learn true c0 (other O) f1 f1 = Ok c' /\
    stored true c' 9 = Ok st' /\
    sg st' W_ZT = fl 2 /\
    f_neg O (loss_d1 (cc_loss (logistic_cfg O)) (co_min c') (co_max c') pr f1) = f_lit O 1 2.
Proof.
  intros e l p O E1 E2.
  assert (C : match coin_new ex_hash true (logistic_cfg O) gc16n 1 with
              | Ok c0 => match coin_betting_predict true (coin_range c0 f1) (other O) f1, coin_learn true c0 (other O) f1 f1 with
                | Ok (pr, cb), Ok c' => match stored true c' 9 with
                          | Ok st' => Some (pr, sg st' W_ZT) | _ => None end
                | _, _ => None end
              | _ => None end = Some (S754_zero false : O, @fl O 2)) by (vm_compute; reflexivity).
  destruct (coin_new ex_hash true (logistic_cfg O) gc16n 1) as [c0|x|x]; try discriminate. exists c0.
  destruct (coin_betting_predict true (coin_range c0 f1) (other O) f1) as [[pr cb]|x|x]; try discriminate.
  destruct (coin_learn true c0 (other O) f1 f1) as [c'|x|x]; try discriminate.
  destruct (stored true c' 9) as [st'|x|x] eqn:E; try discriminate.
  exists c', pr, cb, st'. injection C as C1 C2. subst pr.
  split; auto. split; auto. split; auto. split; auto. split; auto.
  unfold loss_d1, logistic_cfg, lg_d1, lg_mix, lg_d1_sub. cbn [cc_loss].
  replace (f_mul O f1 (S754_zero false)) with (S754_zero false : O) by (vm_compute; reflexivity).
  replace (f_mul O fm1 (S754_zero false)) with (S754_zero true : O) by (vm_compute; reflexivity).
  change (f_exp O (S754_zero false)) with (e (S754_zero false)).
  change (f_exp O (S754_zero true)) with (e (S754_zero true)).
  rewrite E1, E2. vm_compute. reflexivity.
Qed.
