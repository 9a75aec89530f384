(** The fit of the coin regressor in exact arithmetic (C82). *)
From Coq Require Import List NArith ZArith Bool Lia Reals Lra.
From Verif Require Import Base FloatOps FloatR Model_Hash Model_Features Model_Weights Model_Loss
  Model_Interactions Model_Types Model_Coin Proof_Hash Proof_Weights Spec_Weights Proof_WeightsProps
  Proof_Foreach Proof_FloatOrder Spec_Coin Spec_Regret Proof_Coin Proof_CoinR Proof_Betting Proof_Bettor Proof_Regret Proof_Lag Spec_Fit.
Import ListNotations.
Open Scope R_scope.

Definition del : R := / 1000000.
Lemma del_pos : 0 < del. Proof. unfold del. lra. Qed.

(** *** what holds while all examples are regular *)
Record finv (dbg : bool) (c0 : coin RF) (lo hi xi xmax : R) (k : nat) (m : N -> R) (h : list (example RF)) (tw : R) (c : coin RF) : Prop := mkFinv {
  fi_r : rinv dbg c0 lo hi xi xmax h c;
  fi_st : exists ss, co_states c = ((INR k * tw : R) : RF, tw : RF) :: ss;
  fi_tw : 0 <= tw;
  fi_mx : forall i, (i < dw_fsize (co_w c))%N -> fld (read (co_w c) i 0) W_MX = 0 \/ fld (read (co_w c) i 0) W_MX = m i
}.

Lemma norm_fold : forall dbg (c : coin RF) (m : N -> R) (l : list (N * RF)) (a b : R), cwf dbg c -> (forall i v, In (i, v) l -> (i < dw_fsize (co_w c))%N) ->
  (forall i v, In (i, v) l -> 0 < Rabs v /\ (fld (read (co_w c) i 0) W_MX = 0 \/ fld (read (co_w c) i 0) W_MX = Rabs v)) ->
  foldm (fun acc iv => let* st := dw_state_at dbg (co_w c) (fst iv) 0 in inner_predict (co_cfg c) acc (snd iv) st) l (a : RF, b : RF)
    = Ok ((a + lsum (fun iv => bet_of (co_cfg c) (snd iv) (read (co_w c) (fst iv) 0) * snd iv) l : R) : RF, (b + INR (length l) : R) : RF).
Proof.
  intros dbg c m l. induction l as [|[i v] l IH]; intros a b W B M; cbn [foldm fst snd].
  - cbn [lsum fold_right length INR]. do 2 f_equal; ring.
  - destruct (read6 dbg c i W) as (E & L); [apply (B i v); now left|]. rewrite E. cbn [bind].
    set (st := read (co_w c) i 0) in *.
    destruct (M i v (or_introl eq_refl)) as (Pv & Mv). fold st in Mv.
    assert (Mm : Rmax (fld st W_MX) (Rabs v) = Rabs v).
    { destruct Mv as [-> | ->]; [apply Rmax_right; lra|]. apply Rmax_left. lra. }
    assert (Ei : inner_predict (co_cfg c) (a : RF, b : RF) v st = Ok ((a + bet_of (co_cfg c) v st * v : R) : RF, (b + 1 : R) : RF)).
    { unfold inner_predict. rewrite L. cbn [Nat.eqb]. rewrite RF_max, !RF_gtb, RF_f0. 
      assert (Q : (if Rltb 0 (Rmax (fld st W_MX) (Rabs v)) then b + v / Rmax (fld st W_MX) (Rabs v) * (v / Rmax (fld st W_MX) (Rabs v)) else b) = b + 1).
      { rewrite Mm. destruct (Rltb_spec 0 (Rabs v)); [|lra]. f_equal.
        assert (Sq : v * v = Rabs v * Rabs v) by (rewrite <- Rabs_mult; symmetry; apply Rabs_right; apply Rle_ge; exact (Rle_0_sqr v)).
        replace (v / Rabs v * (v / Rabs v)) with (v * v / (Rabs v * Rabs v)) by (field; lra). rewrite Sq. field. lra. }
      rewrite <- Q. reflexivity. }
    rewrite Ei. cbn [bind]. rewrite IH; auto; [|intros j x Hj; apply (B j x); now right|intros j x Hj; apply M; now right].
    cbn [lsum fold_right fst snd length]. fold st. rewrite S_INR. f_equal. f_equal.
    + change (a + bet_of (co_cfg c) v st * v + lsum (fun iv => bet_of (co_cfg c) (snd iv) (read (co_w c) (fst iv) 0) * snd iv) l =
        a + (bet_of (co_cfg c) v st * v + lsum (fun iv => bet_of (co_cfg c) (snd iv) (read (co_w c) (fst iv) 0) * snd iv) l)). ring.
    + change (b + 1 + INR (length l) = b + (INR (length l) + 1)). ring.
Qed.

Lemma dot_sum : forall (l : list (N * RF)) (g : N -> R) (a : R),
  fold_left (fun acc iv => f_add RF acc (f_mul RF (snd iv) (g (fst iv)))) l a = (a + lsum (fun iv => snd iv * g (fst iv)) l : R).
Proof.
  induction l as [|[i v] l IH]; intros g a; cbn [fold_left fst snd lsum fold_right].
  - change (a = a + 0). ring.
  - rewrite IH. cbn [f_add f_mul RF]. change (a + v * g i + lsum (fun iv => snd iv * g (fst iv)) l = a + (v * g i + lsum (fun iv => snd iv * g (fst iv)) l)). ring.
Qed.

Lemma fit_step : forall dbg (c0 : coin RF) lo hi xi xmax wmax idx k m h tw c e l u,
  0 < (cc_alpha (co_cfg c0) : R) -> 0 < (cc_beta (co_cfg c0) : R) -> 0 < xi <= xmax -> 2 * (hi - lo) * wmax <= cc_beta (co_cfg c0) ->
  cc_link (co_cfg c0) = LinkIdentity -> (forall i, 0 < m i) ->
  NoDup idx -> Forall (fun i => (i < dw_fsize (co_w c0))%N) idx ->
  finv dbg c0 lo hi xi xmax k m h tw c -> tame dbg c0 (dw_fsize (co_w c0)) idx xi xmax lo hi wmax e -> regular dbg c0 k m e l ->
  exists p avg c' raw, announced dbg c e = Ok (p, avg) /\ avg = (INR k * (tw + ex_w e) + del) / (tw + ex_w e) /\
    coin_learn dbg c (ex_f e) (ex_y e) (ex_w e) = Ok c' /\ finv dbg c0 lo hi xi xmax k m (h ++ [e]) (tw + ex_w e) c' /\
    coin_predict dbg c' (ex_f e) = Ok (PrScalar p raw) /\
    excess1 u l p avg (ex_y e) (ex_w e) <=
      sum_of (fun i => value u i (read (co_w c') i 0)) idx - sum_of (fun i => value u i (read (co_w c) i 0)) idx.
Proof.
  intros dbg c0 lo hi xi xmax wmax idx k m h tw c e l u A B X Hb Lk Pm Ni Bi [RI (ss & Es) Ptw Mx] T (El & Ll & Ml).
  destruct (regret_step dbg c0 lo hi xi xmax wmax idx h c e u A B X Hb Ni Bi RI T) as (l0 & p & avg & c1 & El0 & Ea & E1 & RI1 & Lx).
  pose proof RI as [I Rl Rr Rh Lo St K]. pose proof T as (Bf & Y & Wt & l1 & El1 & Nl & Vl).
  rewrite El in El1. inversion El1; subst l1; clear El1.
  pose proof I as [W Sh Rg Mi Ma Cf Lo' Fe].
  rewrite Fe, El in El0. inversion El0; subst l0; clear El0.
  assert (Fs : dw_fsize (co_w c) = dw_fsize (co_w c0)) by apply Sh.
  assert (B' : below (dw_fsize (co_w c)) (ex_f e)) by now rewrite Fs.
  destruct (learn_ok dbg c (ex_f e) (ex_y e) (ex_w e) W B' (range_step RF_ford _ _ Rg))
    as (c' & l' & p0 & cb & up & E' & W' & El' & Ep & Eu & M1 & M2 & C1 & C2 & C3 & C4 & C5 & C6 & S' & Rd).
  rewrite E1 in E'. inversion E'; subst c'; clear E'. rewrite Fe, El in El'. inversion El'; subst l'; clear El'.
  assert (Bl : forall i v, In (i, v) l -> (i < dw_fsize (co_w c))%N).
  { destruct (feats_ok dbg c (ex_f e) W B') as (l' & Q & Bl). rewrite Fe, El in Q. inversion Q. subst. exact Bl. }
  set (mn := Rmin (ex_y e) (co_min c)) in *. set (mx := Rmax (ex_y e) (co_max c)) in *.
  assert (Hmn : lo <= mn <= ex_y e) by (unfold mn; split; [apply Rmin_glb; lra|apply Rmin_l]).
  assert (Hmx : ex_y e <= mx <= hi) by (unfold mx; split; [apply Rmax_l|apply Rmax_lub; lra]).
  pose proof Ep as Ep'. unfold coin_betting_predict in Ep.
  assert (Wr : cwf dbg (coin_range c (ex_y e))) by (destruct W; constructor; auto).
  assert (En := norm_fold dbg (coin_range c (ex_y e)) m l 0 0 Wr Bl).
  assert (Mag : forall i v, In (i, v) l -> 0 < Rabs v /\ (fld (read (co_w (coin_range c (ex_y e))) i 0) W_MX = 0 \/ fld (read (co_w (coin_range c (ex_y e))) i 0) W_MX = Rabs v)).
  { intros i v Hv. rewrite (Ml i v Hv). split; [apply Pm|]. apply Mx. now apply (Bl i v). }
  specialize (En Mag). rewrite Ll in En.
  change (coin_feats dbg (coin_range c (ex_y e)) (ex_f e)) with (coin_feats dbg c (ex_f e)) in Ep. rewrite Fe, El in Ep. cbn [bind] in Ep.
  rewrite RF_f0 in Ep. rewrite En in Ep. cbn [bind] in Ep.
  change (co_states (coin_range c (ex_y e))) with (co_states c) in Ep. rewrite Es in Ep. cbn [nth_error opt_or bind fst snd upd] in Ep.
  change (co_min (coin_range c (ex_y e))) with (@f_min RF (ex_y e) (co_min c)) in Ep.
  change (co_max (coin_range c (ex_y e))) with (@f_max RF (ex_y e) (co_max c)) in Ep.
  rewrite RF_min, RF_max in Ep. fold mn mx in Ep.
  change (co_cfg (coin_range c (ex_y e))) with (co_cfg c) in *. change (co_w (coin_range c (ex_y e))) with (co_w c) in *.
  set (q0 := 0 + lsum (fun iv => bet_of (co_cfg c) (snd iv) (read (co_w c) (fst iv) 0) * snd iv) l) in Ep.
  cbn [f_add f_mul f_div f_lit RF] in Ep.
  assert (Qn : INR k * tw + (0 + INR k) * ex_w e = INR k * (tw + ex_w e)) by ring. rewrite Qn in Ep. clear Qn.
  set (av := ((INR k * (tw + ex_w e) + 1 / 1000000) / (tw + ex_w e))) in Ep.
  destruct (clamp_real (q0 / av) mn mx) as (q & Eq & Hq & Hc); [lra|].
  apply bind_ok in Ep. destruct Ep as (p' & Epc & Ep). change (@f_clamp RF (q0 / av) mn mx = Ok p') in Epc.
  rewrite Eq in Epc. inversion Epc; subst p'; clear Epc. inversion Ep as [[Ep1 Ep2]]. clear Ep.
  assert (Ec : co_avg cb = av) by (rewrite <- Ep2; reflexivity).
  assert (Pe : p = p0 /\ avg = av).
  { unfold announced in Ea. rewrite Ep' in Ea. cbn [bind fst snd] in Ea. rewrite Ec in Ea. inversion Ea. auto. }
  destruct Pe as (-> & ->).
  assert (Pw : 0 < tw + ex_w e) by lra.
  assert (Pa : 0 < av).
  { unfold av. apply Rdiv_lt_0_compat; [|lra]. assert (0 <= INR k * (tw + ex_w e)) by (apply Rmult_le_pos; [apply pos_INR|lra]). lra. }
  assert (Eu' : (up : R) = 2 * (p0 - ex_y e) * ex_w e).
  { rewrite Eu, Lo. cbn [loss_d1]. unfold sq_d1. rewrite RF_min, RF_max. fold mn mx. rewrite RF_gtb. cbn [f_ltb f_mul f_sub RF]. rewrite <- Ep1.
    destruct (Rltb_spec q mn); [lra|]. destruct (Rltb_spec mx q); [lra|]. rewrite RF_fl. ring. }
  rewrite Ep1 in *.
  assert (Hu : Rabs up <= cc_beta (co_cfg c0)).
  { rewrite Eu', Rabs_mult, Rabs_mult. rewrite (Rabs_right 2) by lra. rewrite (Rabs_right (ex_w e)) by lra.
    eapply Rle_trans; [|exact Hb]. apply Rmult_le_compat; try lra.
    - pose proof (Rabs_pos (p0 - ex_y e)). lra.
    - apply Rmult_le_compat_l; [lra|]. unfold Rabs. destruct (Rcase_abs (p0 - ex_y e)); lra. }
  (* the state of a feature of the example afterwards *)
  assert (Hit : forall i v, In (i, v) l -> read (co_w c1) i 0 = iu (co_cfg c0) av up v (read (co_w c) i 0)).
  { intros i v Hv. rewrite Rd by now apply (Bl i v). rewrite Cf, Ec. apply in_split in Hv. destruct Hv as (a1 & a2 & ->).
    rewrite (fold_once _ (fun st x => iu (co_cfg c0) av up x st)); auto.
    rewrite map_app in Nl. cbn [map fst] in Nl. apply NoDup_remove_2 in Nl. rewrite <- map_app in Nl.
    intros x Hx. apply Nl. apply in_map_iff. now exists (i, x). }
  (* the prediction afterwards *)
  assert (I1 := ri_c _ _ _ _ _ _ _ _ RI1). pose proof I1 as [W1 Sh1 Rg1 Mi1 Ma1 Cf1 Lo1 Fe1].
  assert (Fs1 : dw_fsize (co_w c1) = dw_fsize (co_w c)) by apply S'.
  assert (Pr : coin_predict dbg c1 (ex_f e) = Ok (PrScalar p0 (q0 / av : R))).
  { unfold coin_predict. rewrite Fe1, El. cbn [bind]. rewrite (dot_ok dbg c1 l W1) by (intros i v Hv; rewrite Fs1; now apply (Bl i v)). cbn [bind].
    rewrite RF_f0.
    replace (fold_left _ l 0) with (q0 / av).
    2:{ transitivity (fold_left (fun acc iv => f_add RF acc (f_mul RF (snd iv) ((fun i => nth 0 (read (co_w c1) i 0) 0) (fst iv)))) l 0); [|reflexivity].
        rewrite (dot_sum l (fun i => nth 0 (read (co_w c1) i 0) 0) 0). unfold q0. rewrite !Rplus_0_l. 
        rewrite (lsum_ext (fun iv => snd iv * nth 0 (read (co_w c1) (fst iv) 0) 0) (fun iv => / av * (bet_of (co_cfg c) (snd iv) (read (co_w c) (fst iv) 0) * snd iv - 0))).
        - rewrite (lsum_diff (fun iv => bet_of (co_cfg c) (snd iv) (read (co_w c) (fst iv) 0) * snd iv) (fun _ => 0) (/ av) l).
          assert (Z : lsum (fun _ => 0) l = 0) by (clear; induction l; cbn [lsum fold_right]; auto; unfold lsum in IHl; rewrite IHl; ring).
          rewrite Z. unfold Rdiv. ring.
        - intros [i v] Hv. cbn [fst snd]. rewrite (Hit i v Hv).
          assert (Kp := K i (Bl i v Hv)). 
          pose proof (gr_so _ _ _ (ke_gr _ _ _ _ _ Kp)) as So.
          destruct (iu_real (co_cfg c0) av up v _ (so_len _ _ So)) as (_ & _ & _ & _ & _ & _ & Ex).
          rewrite (bet_same (co_cfg c0) xi xmax (length h) av up v _ Hu Kp) in Ex. fold (bet_of (co_cfg c0) v (read (co_w c) i 0)) in Ex.
          unfold fld at 1 in Ex. unfold sg, W_XT in Ex. rewrite RF_f0 in Ex. rewrite Ex, Cf. unfold Rdiv. ring. }
    cbn [f_isnan RF]. rewrite M1, M2, RF_min, RF_max. fold mn mx. rewrite Eq. cbn [bind]. rewrite Cf1, Lk. cbn [link_fun]. reflexivity. }
  exists p0, av, c1, (q0 / av). split; [exact Ea|]. split; [unfold av, del; f_equal; lra|]. split; [exact E1|].
  split; [|split; [exact Pr|exact Lx]].
  constructor; auto.
  - exists ss. rewrite (learn_states _ _ _ _ _ _ _ E1 Ep'). rewrite <- Ep2. reflexivity.
  - lra.
  - intros i Hi. rewrite Fs1 in Hi. destruct (in_dec N.eq_dec i (map fst l)) as [J|J].
    + apply in_map_iff in J. destruct J as ([j v] & Q & J). cbn [fst] in Q. subst j. rewrite (Hit i v J).
      pose proof (gr_so _ _ _ (ke_gr _ _ _ _ _ (K i Hi))) as So.
      destruct (iu_real (co_cfg c0) av up v _ (so_len _ _ So)) as (_ & Ex & _). rewrite Ex, (Ml i v J).
      right. pose proof (Pm i). destruct (Mx i Hi) as [-> | ->]; [apply Rmax_right; lra|apply Rmax_left; lra].
    + rewrite Rd by auto. rewrite (fold_skip _ (fun st x => iu (co_cfg c) (co_avg cb) up x st)); auto.
      intros v Hv. apply J. apply in_map_iff. now exists (i, v).
Qed.

(** *** the comparison with a linear predictor *)
Lemma step_real : forall k tw w avg p d y, 0 < k -> 0 <= tw -> 0 < w -> avg = (k * (tw + w) + del) / (tw + w) ->
  k * (w * ((p - y) * (p - y))) <=
  k * (w * ((d - y) * (d - y))) + w * avg * ((p - y) * (p - y) - (k * d / avg - y) * (k * d / avg - y)) + del * (y * y) * (w / (tw + w)).
Proof.
  intros k tw w avg p d y Pk Pt Pw Ea. pose proof del_pos as Pd.
  assert (E : avg = k + del / (tw + w)) by (rewrite Ea; field; lra).
  assert (Ps : 0 < del / (tw + w)) by (apply Rdiv_lt_0_compat; lra). set (s := del / (tw + w)) in *.
  replace (del * (y * y) * (w / (tw + w))) with (w * (s * (y * y))) by (unfold s; field; lra).
  assert (Pa : 0 < avg) by lra.
  assert (Q : avg * ((k * d / avg - y) * (k * d / avg - y)) <= k * ((d - y) * (d - y)) + s * (y * y)).
  { assert (Q1 : avg * ((k * d / avg - y) * (k * d / avg - y)) = k * (k * / avg) * (d * d) - 2 * k * d * y + avg * (y * y)) by (field; lra).
    assert (Q2 : k * / avg <= 1). { apply Rmult_le_reg_r with avg; auto. rewrite Rmult_assoc, Rinv_l by lra. lra. }
    pose proof (Rle_0_sqr d) as Sd. unfold Rsqr in Sd.
    assert (Q3 : k * (k * / avg) * (d * d) <= k * (d * d)).
    { rewrite Rmult_assoc. apply Rmult_le_compat_l; [lra|]. rewrite <- (Rmult_1_l (d * d)) at 2. now apply Rmult_le_compat_r. }
    rewrite Q1, E at 1. rewrite E in Q3 |- *. lra. }
  pose proof (Rle_0_sqr (p - y)) as Sp. unfold Rsqr in Sp.
  assert (Q4 : k * ((p - y) * (p - y)) <= avg * ((p - y) * (p - y))) by (apply Rmult_le_compat_r; lra).
  assert (Q5 : 0 <= w * (k * ((d - y) * (d - y)) + s * (y * y) - avg * ((k * d / avg - y) * (k * d / avg - y)) + (avg * ((p - y) * (p - y)) - k * ((p - y) * (p - y)))))
    by (apply Rmult_le_pos; lra).
  lra.
Qed.
Definition lg (wmin tw : R) : R := if Rltb 0 tw then 1 + ln (tw / wmin) else 0.
Lemma lg_step : forall wmin tw w, 0 < wmin -> 0 <= tw -> wmin <= w -> w / (tw + w) <= lg wmin (tw + w) - lg wmin tw.
Proof.
  intros wmin tw w Pm Pt Pw. unfold lg. destruct (Rltb_spec 0 (tw + w)); [|lra]. destruct (Rltb_spec 0 tw) as [L|L].
  - assert (Q : ln (tw / wmin) = ln ((tw + w) / wmin) + ln (tw / (tw + w))).
    { rewrite <- ln_mult; [f_equal; field; lra| |]; apply Rdiv_lt_0_compat; lra. }
    rewrite Q. assert (Q2 : ln (tw / (tw + w)) <= - (w / (tw + w))).
    { replace (tw / (tw + w)) with (1 + - (w / (tw + w))) by (field; lra). 
      assert (P1 : 0 < 1 + - (w / (tw + w))) by (replace (1 + - (w / (tw + w))) with (tw / (tw + w)) by (field; lra); apply Rdiv_lt_0_compat; lra).
      rewrite <- (ln_exp (- (w / (tw + w)))) at 2. apply ln_le. split; auto.
      destruct (Req_dec (- (w / (tw + w))) 0) as [Z|Z]; [rewrite Z, exp_0; lra|]. left. now apply exp_ineq1. }
    lra.
  - assert (tw = 0) by lra. subst. rewrite Rplus_0_l. replace (w / w) with 1 by (field; lra).
    assert (0 <= ln (w / wmin)). { rewrite <- ln_1. apply ln_le. split; [lra|]. apply Rmult_le_reg_r with wmin; auto. unfold Rdiv. rewrite Rmult_assoc, Rinv_l by lra. lra. }
    lra.
Qed.
Lemma lg_bound : forall wmin wmax t tw, 0 < wmin -> 0 <= tw <= t * wmax -> lg wmin tw <= 1 + ln (1 + t * wmax / wmin).
Proof.
  intros wmin wmax t tw Pm T. unfold lg.
  assert (Q : tw / wmin <= t * wmax / wmin) by (apply Rmult_le_compat_r; [left; now apply Rinv_0_lt_compat|lra]).
  assert (Q0 : 0 <= tw / wmin) by (apply Rmult_le_pos; [lra|left; now apply Rinv_0_lt_compat]).
  destruct (Rltb_spec 0 tw) as [L|L].
  - apply Rplus_le_compat_l. apply ln_le. split; [apply Rdiv_lt_0_compat; lra|lra].
  - assert (0 <= ln (1 + t * wmax / wmin)) by (rewrite <- ln_1; apply ln_le; lra). lra.
Qed.
Lemma dot_scal : forall a u l, dot (fun i => a * u i) l = a * dot u l.
Proof. intros a u l. induction l as [|x l IH]; cbn [dot fold_right]; [ring|]. unfold dot in *. rewrite IH. ring. Qed.

Lemma fit_run : forall dbg (c0 : coin RF) lo hi xi xmax wmin wmax idx (k : nat) m u,
  0 < (cc_alpha (co_cfg c0) : R) -> 0 < (cc_beta (co_cfg c0) : R) -> 0 < xi <= xmax -> 2 * (hi - lo) * wmax <= cc_beta (co_cfg c0) ->
  cc_link (co_cfg c0) = LinkIdentity -> (forall i, 0 < m i) -> (0 < k)%nat -> 0 < wmin ->
  NoDup idx -> Forall (fun i => (i < dw_fsize (co_w c0))%N) idx ->
  let y := Rmax (Rabs lo) (Rabs hi) in let ku := fun i => INR k * u i in
  forall hs ls h tw c, finv dbg c0 lo hi xi xmax k m h tw c ->
    Forall (fun e => tame dbg c0 (dw_fsize (co_w c0)) idx xi xmax lo hi wmax e /\ wmin <= ex_w e) hs -> Forall2 (regular dbg c0 k m) hs ls ->
  exists r c' tw', fit_loss dbg hs c = Ok r /\ finv dbg c0 lo hi xi xmax k m (h ++ hs) tw' c' /\ tw' <= tw + INR (length hs) * wmax /\
    INR k * r <= INR k * linear_loss u hs ls +
      (sum_of (fun i => value ku i (read (co_w c') i 0)) idx - sum_of (fun i => value ku i (read (co_w c) i 0)) idx) +
      del * (y * y) * (lg wmin tw' - lg wmin tw).
Proof.
  intros dbg c0 lo hi xi xmax wmin wmax idx k m u A B X Hb Lk Pm Pk Pw Ni Bi y ku. assert (Pk' : 0 < INR k) by (now apply lt_0_INR).
  induction hs as [|e hs IH]; intros ls h tw c I T Rg; inversion Rg as [|? l ? ls' Rg1 Rg2]; subst.
  - exists 0, c, tw. rewrite app_nil_r. split; [reflexivity|]. split; auto. cbn [length INR linear_loss]. split; lra.
  - inversion T as [|? ? (T1 & Wl) T2]; subst.
    destruct (fit_step dbg c0 lo hi xi xmax wmax idx k m h tw c e l ku A B X Hb Lk Pm Ni Bi I T1 Rg1) as (p & avg & c1 & raw & _ & Ea & E1 & I1 & Ep & Lx).
    destruct (IH ls' (h ++ [e]) (tw + ex_w e) c1 I1 T2 Rg2) as (r & c2 & tw2 & Er & I2 & Tw & Lr). rewrite <- app_assoc in I2.
    exists (ex_w e * ((p - ex_y e) * (p - ex_y e)) + r), c2, tw2. split.
    { cbn [fit_loss]. rewrite E1. cbn [bind]. rewrite Ep. cbn [bind]. rewrite Er. reflexivity. }
    split; auto. pose proof T1 as (_ & Yr & Wr & _).
    split; [cbn [length]; rewrite S_INR; lra|].
    pose proof (fi_tw _ _ _ _ _ _ _ _ _ _ _ I) as Pt.
    pose proof (step_real (INR k) tw (ex_w e) avg p (dot u l) (ex_y e) Pk' Pt ltac:(lra) Ea) as Q1.
    unfold excess1 in Lx. unfold ku in Lx at 1 2. rewrite dot_scal in Lx.
    pose proof (lg_step wmin tw (ex_w e) Pw Pt Wl) as Q2.
    assert (Qy : ex_y e * ex_y e <= y * y).
    { assert (Ay : Rabs (ex_y e) <= y).
      { unfold y. unfold Rabs at 1. pose proof (Rmax_l (Rabs lo) (Rabs hi)). pose proof (Rmax_r (Rabs lo) (Rabs hi)).
        pose proof (Rle_abs hi). pose proof (Rle_abs (- lo)). rewrite Rabs_Ropp in *. destruct (Rcase_abs (ex_y e)); lra. }
      replace (ex_y e * ex_y e) with (Rabs (ex_y e) * Rabs (ex_y e)) by (rewrite <- Rabs_mult; apply Rabs_right; apply Rle_ge; exact (Rle_0_sqr (ex_y e))).
      apply Rmult_le_compat; auto using Rabs_pos. }
    pose proof del_pos as Pd. pose proof (Rle_0_sqr (ex_y e)) as Sy. unfold Rsqr in Sy.
    assert (Q3 : del * (ex_y e * ex_y e) * (ex_w e / (tw + ex_w e)) <= del * (y * y) * (lg wmin (tw + ex_w e) - lg wmin tw)).
    { apply Rmult_le_compat; auto; [apply Rmult_le_pos; lra|apply Rmult_le_pos; [lra|left; apply Rinv_0_lt_compat; lra]|].
      apply Rmult_le_compat_l; lra. }
    cbn [linear_loss]. fold ku in Lx |- *. lra.
Qed.

Lemma fit_bound : forall H dbg (cfg : coin_config RF) gc nma n (c0 : coin RF) idx xi xmax lo hi wmin wmax k m u h ls,
  coin_new H dbg cfg gc nma = Ok c0 -> (0 < nma < 2 ^ 8)%N ->
  bits_to_max_feature_index dbg (gc_bits gc) = Ok n ->
  0 < (cc_alpha cfg : R) -> 0 < (cc_beta cfg : R) -> 0 < xi <= xmax -> cc_link cfg = LinkIdentity ->
  lo <= lo0 cfg -> hi0 cfg <= hi -> 2 * (hi - lo) * wmax <= cc_beta cfg -> 0 < wmin -> (0 < k)%nat -> (forall i, 0 < m i) ->
  NoDup idx -> Forall (fun i => (i < n)%N) idx ->
  Forall (fun e => tame dbg c0 n idx xi xmax lo hi wmax e /\ wmin <= ex_w e) h -> Forall2 (regular dbg c0 k m) h ls ->
  exists r, fit_loss dbg h c0 = Ok r /\
    r <= linear_loss u h ls + fit_gap (cc_alpha cfg) (cc_beta cfg) xi xmax lo hi wmin wmax k u idx (INR (length h)).
Proof.
  intros H dbg cfg gc nma n c0 idx xi xmax lo hi wmin wmax k m u h ls E Hn Hb A B X Lk Hlo Hhi Hr Pw Pk Pm Ni Bi T Rg.
  destruct (coin_new_wf _ _ _ _ _ _ E Hn) as (W & Bb & L & U & C & Ls & Z0).
  rewrite Hb in Bb. inversion Bb; subst n; clear Bb.
  pose proof (cinv_init RF_ford _ _ _ _ _ _ E Hn) as I0.
  assert (St : exists ss, co_states c0 = ((0 : R) : RF, (0 : R) : RF) :: ss).
  { unfold coin_new in E. apply bind_ok in E. destruct E as (pt & _ & E). destruct (cc_loss cfg);
      apply bind_ok in E; destruct E as (fs & _ & E); apply bind_ok in E; destruct E as (w & _ & E); inversion E; cbn [co_states];
      (destruct (N.to_nat nma) eqn:Q; [exfalso; lia|]); cbn [repeat]; eexists; (apply (f_equal2 cons); [apply (f_equal2 pair); exact RF_f0|reflexivity]). }
  destruct St as (ss & St).
  assert (R0 : rinv dbg c0 lo hi xi xmax [] c0).
  { constructor; auto.
    - now rewrite L.
    - pose proof (ci_range _ _ _ _ I0) as Q. cbn [f_leb RF] in Q. now destruct (Rleb_spec (co_min c0) (co_max c0)).
    - now rewrite U.
    - eexists _, _. split; [exact St|]. cbn [fst snd]. lra.
    - intros i Hi. destruct (fresh_state _ _ _ _ _ _ _ E Hn Hi) as (Ln & F). rewrite C.
      constructor; [now apply grown_0| | |]; unfold W_MG, W_MX, W_G2; rewrite !F by lia; auto; cbn [length INR]; lra. }
  assert (F0 : finv dbg c0 lo hi xi xmax k m [] 0 c0).
  { constructor; auto; [exists ss; rewrite Rmult_0_r; exact St|lra|].
    intros i Hi. destruct (fresh_state _ _ _ _ _ _ _ E Hn Hi) as (Ln & F). left. apply F. unfold W_MX. lia. }
  assert (A' := A). assert (B' := B). assert (Lk' := Lk). rewrite <- C in A, B, Hr, Lk.
  destruct (fit_run dbg c0 lo hi xi xmax wmin wmax idx k m u A B X Hr Lk Pm Pk Pw Ni Bi h ls [] 0 c0 F0 T Rg) as (r & c & tw & Er & Ic & Tw & Lr).
  exists r. split; auto. assert (Pk' : 0 < INR k) by (now apply lt_0_INR).
  set (ku := fun i => INR k * u i) in *.
  assert (Q0 : sum_of (fun i => value ku i (read (co_w c0) i 0)) idx = 0).
  { transitivity (sum_of (fun _ => 0) idx).
    - apply sum_ext. intros i Hi. rewrite Forall_forall in Bi. destruct (fresh_state _ _ _ _ _ _ _ E Hn (Bi i Hi)) as (Ln & F).
      unfold value, W_ZT, W_WE. rewrite !F by lia. ring.
    - clear. induction idx; cbn [sum_of fold_right]; auto. unfold sum_of in IHidx. rewrite IHidx. ring. }
  pose proof (fi_r _ _ _ _ _ _ _ _ _ _ _ Ic) as Rc. cbn [app] in Rc. pose proof (pos_INR (length h)) as Pt.
  assert (Q1 : sum_of (fun i => value ku i (read (co_w c) i 0)) idx <= sum_of (fun i => cc_alpha cfg + Rabs (INR k * u i) * (cc_beta cfg * xmax *
     sqrt (2 * INR (length h) * ln (1 + exp 1 * Rabs (INR k * u i) * INR (length h) * (INR (length h) + 1) * (cc_beta cfg * (xmax * xmax)) / (cc_alpha cfg * xi))))) idx).
  { apply sum_le. intros i Hi. rewrite Forall_forall in Bi.
    assert (Hc : (i < dw_fsize (co_w c))%N) by (replace (dw_fsize (co_w c)) with (dw_fsize (co_w c0)); [now apply Bi|symmetry; apply Rc]).
    pose proof (ri_k _ _ _ _ _ _ _ _ Rc i Hc) as K. rewrite C in K. pose proof (ke_gr _ _ _ _ _ K) as G.
    unfold value. eapply Rle_trans; [apply (grown_regret cfg xi); auto; lra|].
    rewrite <- regret_formula by (auto; lra).
    pose proof (gr_so _ _ _ G) as So. apply regret_mono; auto.
    - apply Rmult_lt_0_compat; lra.
    - split; [apply Rmult_le_pos; apply So|]. apply Rmult_le_compat; try apply So; [|apply K].
      destruct (ke_mg _ _ _ _ _ K) as [-> | ->]; lra.
    - split; [|apply K]. eapply Rle_trans; [apply Rabs_pos|apply So]. }
  assert (Q2 : lg wmin 0 = 0) by (unfold lg; destruct (Rltb_spec 0 0); lra).
  pose proof (fi_tw _ _ _ _ _ _ _ _ _ _ _ Ic) as Ptw.
  assert (Q3 := lg_bound wmin wmax (INR (length h)) tw Pw ltac:(lra)).
  cbn zeta in Lr. rewrite Q0, Q2, !Rminus_0_r in Lr.
  unfold fit_gap. set (y := Rmax (Rabs lo) (Rabs hi)) in *. set (S1 := sum_of _ idx) in Lr, Q1. set (S2 := sum_of _ idx) in Q1 |- *.
  assert (Q4 : del * (y * y) * lg wmin tw <= / 1000000 * (y * y) * (1 + ln (1 + INR (length h) * wmax / wmin))).
  { change (/ 1000000) with del. apply Rmult_le_compat_l; auto. apply Rmult_le_pos; [pose proof del_pos; lra|exact (Rle_0_sqr y)]. }
  apply Rmult_le_reg_l with (INR k); auto.
  rewrite Rmult_plus_distr_l. unfold Rdiv at 1. rewrite (Rmult_comm _ (/ INR k)), <- Rmult_assoc, Rinv_r, Rmult_1_l by lra. lra.
Qed.

Lemma ln_slow : forall c eps, 0 <= c -> 0 < eps -> exists t0 : nat, forall t : nat, (t0 <= t)%nat -> ln (1 + c * INR t) <= eps * INR t.
Proof.
  intros c eps Pc Pe.
  destruct (nat_above (4 * (1 + c) / (eps * eps) + 1)) as (t0 & H0). exists t0. intros t Ht. apply le_INR in Ht.
  assert (P1 : 0 <= 4 * (1 + c) / (eps * eps)) by (apply Rmult_le_pos; [lra|left; apply Rinv_0_lt_compat; nra]).
  assert (T1 : 1 <= INR t) by lra.
  assert (Q1 : 1 <= 1 + c * INR t) by nra.
  eapply Rle_trans; [apply ln_sqrt; auto|].
  apply Rsqr_incr_0_var; [|nra]. unfold Rsqr.
  replace (2 * sqrt (1 + c * INR t) * (2 * sqrt (1 + c * INR t))) with (4 * (sqrt (1 + c * INR t) * sqrt (1 + c * INR t))) by ring.
  rewrite sqrt_sqrt by lra.
  assert (Q2 : 4 * (1 + c) <= eps * eps * INR t).
  { assert (4 * (1 + c) / (eps * eps) <= INR t) by lra. apply Rmult_le_compat_r with (r := eps * eps) in H; [|nra].
    unfold Rdiv in H. rewrite Rmult_assoc, Rinv_l in H by nra. lra. }
  assert (Q3 : 4 * (1 + c) * INR t <= eps * eps * INR t * INR t) by (apply Rmult_le_compat_r; lra). nra.
Qed.

Lemma fit_limit : forall H dbg (cfg : coin_config RF) gc nma n (c0 : coin RF) idx xi xmax lo hi wmin wmax k m u eps,
  coin_new H dbg cfg gc nma = Ok c0 -> (0 < nma < 2 ^ 8)%N ->
  bits_to_max_feature_index dbg (gc_bits gc) = Ok n ->
  0 < (cc_alpha cfg : R) -> 0 < (cc_beta cfg : R) -> 0 < xi <= xmax -> cc_link cfg = LinkIdentity ->
  lo <= lo0 cfg -> hi0 cfg <= hi -> 2 * (hi - lo) * wmax <= cc_beta cfg -> 0 < wmin <= wmax -> (0 < k)%nat -> (forall i, 0 < m i) ->
  NoDup idx -> Forall (fun i => (i < n)%N) idx -> 0 < eps ->
  exists t0, forall h ls, (t0 <= length h)%nat ->
    Forall (fun e => tame dbg c0 n idx xi xmax lo hi wmax e /\ wmin <= ex_w e) h -> Forall2 (regular dbg c0 k m) h ls ->
    exists r, fit_loss dbg h c0 = Ok r /\ r <= linear_loss u h ls + eps * INR (length h).
Proof.
  intros H dbg cfg gc nma n c0 idx xi xmax lo hi wmin wmax k m u eps E Hn Hb A B X Lk Hlo Hhi Hr Pw Pk Pm Ni Bi Pe.
  assert (Pk' : 0 < INR k) by (now apply lt_0_INR). set (e1 := eps * INR k / 3). assert (Pe1 : 0 < e1) by (unfold e1; apply Rdiv_lt_0_compat; nra).
  set (ku := fun i => INR k * u i).
  destruct (slow_sum (fun i t => cc_alpha cfg + Rabs (ku i) * (cc_beta cfg * xmax *
           sqrt (2 * t * ln (1 + exp 1 * Rabs (ku i) * t * (t + 1) * (cc_beta cfg * (xmax * xmax)) / (cc_alpha cfg * xi))))) idx e1 Pe1) as (t1 & H1).
  { intros i e Ee. pose proof (Rabs_pos (ku i)) as Pu. pose proof (exp_pos 1) as Px.
    assert (Pb : 0 <= cc_beta cfg * xmax) by (apply Rmult_le_pos; lra).
    destruct (slow (cc_alpha cfg) (Rabs (ku i) * (cc_beta cfg * xmax)) (exp 1 * Rabs (ku i) * (cc_beta cfg * (xmax * xmax)) / (cc_alpha cfg * xi)) e) as (t0 & H0); auto.
    - lra.
    - apply Rmult_le_pos; auto.
    - apply div_nonneg; [|apply Rmult_lt_0_compat; lra]. apply Rmult_le_pos; [apply Rmult_le_pos; lra|]. apply Rmult_le_pos; [lra|nra].
    - exists t0. intros t Ht. pose proof (H0 t Ht) as Q.
      replace (exp 1 * Rabs (ku i) * INR t * (INR t + 1) * (cc_beta cfg * (xmax * xmax)) / (cc_alpha cfg * xi))
        with (exp 1 * Rabs (ku i) * (cc_beta cfg * (xmax * xmax)) / (cc_alpha cfg * xi) * INR t * (INR t + 1)) by (field; split; lra).
      rewrite <- Rmult_assoc. exact Q. }
  set (y := Rmax (Rabs lo) (Rabs hi)). set (d := / 1000000 * (y * y)).
  assert (Pd : 0 <= d) by (unfold d; apply Rmult_le_pos; [lra|exact (Rle_0_sqr y)]).
  destruct (ln_slow (wmax / wmin) (e1 / (1 + d))) as (t2 & H2).
  { apply Rmult_le_pos; [lra|left; apply Rinv_0_lt_compat; lra]. } { apply Rdiv_lt_0_compat; lra. }
  destruct (nat_above (d / e1)) as (t3 & H3).
  exists (Nat.max t1 (Nat.max t2 t3)). intros h ls Ht T Rg.
  destruct (fit_bound H dbg cfg gc nma n c0 idx xi xmax lo hi wmin wmax k m u h ls) as (r & Er & Lr); auto; [lra|].
  exists r. split; auto. eapply Rle_trans; [exact Lr|]. apply Rplus_le_compat_l. unfold fit_gap. fold y. fold d.
  specialize (H1 (length h) ltac:(lia)). specialize (H2 (length h) ltac:(lia)). assert (T3 : INR t3 <= INR (length h)) by (apply le_INR; lia).
  unfold ku in H1. set (S1 := sum_of _ idx) in H1. set (S2 := sum_of _ idx). change S1 with S2 in H1.
  replace (INR (length h) * wmax / wmin) with (wmax / wmin * INR (length h)) by (field; lra). set (g := ln _) in *.
  assert (Q2 : d * g <= e1 * INR (length h)).
  { apply Rle_trans with (d * (e1 / (1 + d) * INR (length h))); [apply Rmult_le_compat_l; auto|].
    replace (d * (e1 / (1 + d) * INR (length h))) with (e1 * INR (length h) * (d / (1 + d))) by (field; lra).
    rewrite <- (Rmult_1_r (e1 * INR (length h))) at 2. apply Rmult_le_compat_l; [apply Rmult_le_pos; [lra|apply pos_INR]|].
    apply Rmult_le_reg_r with (1 + d); [lra|]. unfold Rdiv. rewrite Rmult_assoc, Rinv_l by lra. lra. }
  assert (Q3 : d <= e1 * INR (length h)).
  { assert (Q : d / e1 <= INR (length h)) by lra. apply Rmult_le_compat_r with (r := e1) in Q; [|lra]. unfold Rdiv in Q. rewrite Rmult_assoc, Rinv_l in Q by lra. lra. }
  apply Rmult_le_reg_l with (INR k); auto. unfold Rdiv. rewrite (Rmult_comm _ (/ INR k)), <- Rmult_assoc, Rinv_r, Rmult_1_l by lra.
  replace (INR k * (eps * INR (length h))) with (3 * (e1 * INR (length h))) by (unfold e1; field). lra.
Qed.
