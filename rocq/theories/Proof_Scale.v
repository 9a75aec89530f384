(** C94: labels in another unit. *)
From Coq Require Import List NArith ZArith Bool Lia Reals Lra.
From Verif Require Import Base FloatOps FloatR Model_Hash Model_Features Model_Weights Model_Loss
  Model_Interactions Model_Types Model_Coin Proof_Hash Proof_Weights Spec_Weights Proof_WeightsProps
  Proof_Foreach Proof_FloatOrder Spec_Coin Proof_StackRestore Proof_StackProps Proof_Coin Proof_CoinR Proof_Betting Proof_Bettor
  Proof_Zero Spec_Scale.
Import ListNotations.
Open Scope R_scope.

Section Scale.
Variable s : R.
Hypothesis s0 : s <> 0.
Let as0 : 0 < Rabs s := Rabs_pos_lt s s0.
Lemma abs2 : Rabs s * Rabs s = s * s.
Proof. rewrite <- Rabs_mult. apply Rabs_right. apply Rle_ge. apply Rle_0_sqr. Qed.
Lemma ltb_abs : forall a b, Rltb (Rabs s * a) (Rabs s * b) = Rltb a b.
Proof.
  intros a b. destruct (Rltb_spec a b) as [Q|Q], (Rltb_spec (Rabs s * a) (Rabs s * b)) as [K|K]; auto.
  - destruct K. now apply Rmult_lt_compat_l.
  - destruct Q. now apply (Rmult_lt_reg_l (Rabs s)).
Qed.
Lemma ltb_abs0 : forall b, Rltb 0 (Rabs s * b) = Rltb 0 b.
Proof. intros b. rewrite <- (ltb_abs 0 b). now rewrite Rmult_0_r. Qed.
Lemma bet_s : forall a m z g w, bet (s * s * a) (Rabs s * m) (s * z) (Rabs s * g) (s * s * w) = s * bet a m z g w.
Proof.
  intros a m z g w. unfold bet. rewrite ltb_abs0. destruct (Rltb 0 m); [|ring].
  replace (Rabs s * m * (Rabs s * m + Rabs s * g)) with (s * s * (m * (m + g))) by (rewrite <- abs2; ring).
  unfold Rdiv. rewrite (Rinv_mult (s * s)). transitivity (s * s * / (s * s) * (s * ((a + w) * / (m * (m + g)) * z))); [ring|].
  rewrite Rinv_r; [ring|]. apply Rmult_integral_contrapositive_currified; auto.
Qed.

(** one row *)
Definition rs (st st' : list RF) : Prop :=
  length st = 6%nat /\ length st' = 6%nat /\ fld st' W_XT = s * fld st W_XT /\ fld st' W_ZT = s * fld st W_ZT /\
  fld st' W_G2 = Rabs s * fld st W_G2 /\ fld st' W_MX = fld st W_MX /\ fld st' W_WE = s * s * fld st W_WE /\
  fld st' W_MG = Rabs s * fld st W_MG.
Lemma iu_s : forall cfg (avg u x : RF) st st', rs st st' ->
  rs (iu cfg avg u x st) (iu (scaled_cfg s cfg) avg ((s * u)%R : RF) x st').
Proof.
  intros cfg avg u x st st' (L & L' & Xt & Zt & G2 & Mx & We & Mg).
  destruct (iu_real cfg avg u x st L) as (A0 & A1 & A2 & A3 & A4 & A5 & A6).
  destruct (iu_real (scaled_cfg s cfg) avg ((s * u)%R : RF) x st' L') as (B0 & B1 & B2 & B3 & B4 & B5 & B6).
  cbn [cc_alpha cc_beta scaled_cfg] in *.
  set (n := iu cfg avg u x st) in *. set (n' := iu (scaled_cfg s cfg) avg ((s * u)%R : RF) x st') in *.
  assert (M : fld n' W_MX = fld n W_MX) by (rewrite A1, B1, Mx; reflexivity).
  assert (G : fld n' W_MG = Rabs s * fld n W_MG).
  { rewrite Rabs_mult, Mg in B2. destruct A2 as [(Q & E)|(Q & E)], B2 as [(Q' & E')|(Q' & E')]; rewrite E, E'; auto.
    - exfalso. apply (Rlt_not_le _ _ Q'). now apply Rmult_le_compat_l; [left|].
    - exfalso. apply (Rlt_not_le _ _ (Rmult_lt_compat_l _ _ _ as0 Q)). exact Q'.
    - rewrite RmaxRmult; auto. lra. }
  assert (Bt : bet (s * s * cc_alpha cfg) (fld n' W_MG * fld n' W_MX) (fld st' W_ZT) (fld st' W_G2) (fld st' W_WE) =
     s * bet (cc_alpha cfg) (fld n W_MG * fld n W_MX) (fld st W_ZT) (fld st W_G2) (fld st W_WE)).
  { rewrite M, G, Zt, G2, We, (Rmult_assoc (Rabs s)). apply bet_s. }
  rewrite Bt in B5, B6. unfold rs. split; auto. split; auto. rewrite A3, A4, A5, A6, B3, B4, B5, B6, Zt, G2, We, M, G.
  unfold Rdiv. repeat split; try ring. rewrite !Rabs_mult. ring.
Qed.
Lemma fold_s : forall cfg (avg u : RF) i l st st', rs st st' ->
  rs (fold_left (fun st (iv : N * RF) => if N.eqb (fst iv) i then iu cfg avg u (snd iv) st else st) l st)
     (fold_left (fun st (iv : N * RF) => if N.eqb (fst iv) i then iu (scaled_cfg s cfg) avg ((s * u)%R : RF) (snd iv) st else st) l st').
Proof.
  intros cfg avg u i l. induction l as [|[j v] l IH]; intros st st' Q; cbn [fold_left fst snd]; auto.
  destruct (N.eqb j i); auto. apply IH. now apply iu_s.
Qed.

(** the range *)
Definition rng (lo hi lo' hi' : R) : Prop := 0 < s /\ lo' = s * lo /\ hi' = s * hi \/ s < 0 /\ lo' = s * hi /\ hi' = s * lo.
Lemma lt_pos : forall a b, 0 < s -> (s * a < s * b <-> a < b).
Proof. intros a b P. split; intros Q; [now apply (Rmult_lt_reg_l s)|now apply Rmult_lt_compat_l]. Qed.
Lemma lt_neg : forall a b, s < 0 -> (s * a < s * b <-> b < a).
Proof.
  intros a b P. assert (P' : 0 < - s) by lra. split; intros Q; [apply (Rmult_lt_reg_l (- s)); lra|].
  apply (Rmult_lt_compat_l (- s)) in Q; lra.
Qed.
Lemma ltb_pos : forall a b, 0 < s -> Rltb (s * a) (s * b) = Rltb a b.
Proof. intros a b P. pose proof (lt_pos a b P). destruct (Rltb_spec (s * a) (s * b)), (Rltb_spec a b); tauto. Qed.
Lemma ltb_neg : forall a b, s < 0 -> Rltb (s * a) (s * b) = Rltb b a.
Proof. intros a b P. pose proof (lt_neg a b P). destruct (Rltb_spec (s * a) (s * b)), (Rltb_spec b a); tauto. Qed.
Lemma clamp_s : forall (x lo hi lo' hi' q : RF), rng lo hi lo' hi' -> f_clamp x lo hi = Ok q ->
  f_clamp ((s * x)%R : RF) lo' hi' = Ok ((s * q)%R : RF).
Proof.
  intros x lo hi lo' hi' q R. unfold f_clamp. cbn [f_leb f_ltb RF]. destruct (Rleb_spec lo hi) as [L|L]; [|discriminate].
  intros E. inversion E; subst q; clear E. destruct R as [(P & -> & ->)|(P & -> & ->)].
  - destruct (Rleb_spec (s * lo) (s * hi)) as [K|K].
    + f_equal. rewrite ltb_pos by auto. destruct (Rltb x lo); rewrite ltb_pos by auto; now destruct (Rltb hi _).
    + destruct K. apply Rmult_le_compat_l; lra.
  - destruct (Rleb_spec (s * hi) (s * lo)) as [K|K].
    + f_equal. rewrite ltb_neg by auto.
      destruct (Rltb_spec hi x), (Rltb_spec x lo); try lra; rewrite ltb_neg by auto;
        destruct (Rltb_spec lo hi); destruct (Rltb_spec hi lo); destruct (Rltb_spec x lo); destruct (Rltb_spec hi x); try lra; auto.
      all: assert (lo = hi) by lra; subst; auto.
    + destruct K. apply (Rmult_le_compat_l (- s)) in L; lra.
Qed.
Lemma d1_s : forall (lo hi lo' hi' p y : RF), rng lo hi lo' hi' -> (lo : R) <= hi ->
  sq_d1 lo' hi' ((s * p)%R : RF) ((s * y)%R : RF) = (s * sq_d1 lo hi p y)%R.
Proof.
  intros lo hi lo' hi' p y Rg L. unfold sq_d1, f_gtb. cbn [f_mul f_sub f_ltb RF].
  match goal with |- @eq _ ?a ?b => change (@eq R a b) end.
  destruct Rg as [(P & -> & ->)|(P & -> & ->)].
  - rewrite !ltb_pos by auto. destruct (Rltb p lo), (Rltb hi p); ring.
  - rewrite !ltb_neg by auto. destruct (Rltb_spec p lo), (Rltb_spec hi p); try lra; ring.
Qed.
Lemma min_s : forall (y lo hi lo' hi' : RF), rng lo hi lo' hi' ->
  rng (f_min y lo) (f_max y hi) (@f_min RF ((s * y)%R : RF) lo') (@f_max RF ((s * y)%R : RF) hi').
Proof.
  intros y lo hi lo' hi' R. unfold f_min, f_max. cbn [f_isnan f_ltb RF].
  destruct R as [(P & -> & ->)|(P & -> & ->)]; [left|right]; (split; [exact P|]).
  - rewrite !ltb_pos by auto. split; [destruct (Rltb lo y)|destruct (Rltb y hi)]; reflexivity.
  - rewrite !ltb_neg by auto. split; [destruct (Rltb y hi)|destruct (Rltb lo y)]; reflexivity.
Qed.

(** regressors *)
Record srel (c c' : coin RF) : Prop := mkSrel {
  sr_rows : forall i, (i < dw_fsize (co_w c))%N -> rs (read (co_w c) i 0) (read (co_w c') i 0);
  sr_fs : dw_fsize (co_w c') = dw_fsize (co_w c);
  sr_states : co_states c' = co_states c;
  sr_rng : rng (co_min c) (co_max c) (co_min c') (co_max c');
  sr_cfg : co_cfg c' = scaled_cfg s (co_cfg c);
  sr_feats : forall dbg f, coin_feats dbg c' f = coin_feats dbg c f
}.
Definition nxt (b x m : R) : R := if Rltb 0 m then b + x / m * (x / m) else b.
Lemma inner_real : forall cfg (a b x : RF) st, length st = 6%nat ->
  inner_predict cfg (a, b) x st =
  Ok (((a + bet (cc_alpha cfg) (fld st W_MG * Rmax (fld st W_MX) (Rabs x)) (fld st W_ZT) (fld st W_G2) (fld st W_WE) * x)%R : RF),
      (nxt b x (Rmax (fld st W_MX) (Rabs x)) : RF)).
Proof. intros cfg a b x st L. unfold inner_predict. rewrite L. cbn [Nat.eqb]. rewrite !RF_gtb, RF_f0, RF_max. reflexivity. Qed.
Lemma inner_s : forall cfg (a b x : RF) st st', rs st st' -> exists a1 b1 : RF,
  inner_predict cfg (a, b) x st = Ok (a1, b1) /\
  inner_predict (scaled_cfg s cfg) (((s * a)%R : RF), b) x st' = Ok (((s * a1)%R : RF), b1).
Proof.
  intros cfg a b x st st' (L & L' & Xt & Zt & G2 & Mx & We & Mg). rewrite (inner_real cfg a b x st L), (inner_real _ _ b x st' L').
  eexists _, _. split; [reflexivity|]. rewrite Mx, Zt, G2, We, Mg, (Rmult_assoc (Rabs s)). cbn [cc_alpha scaled_cfg]. rewrite bet_s.
  apply f_equal. apply f_equal2; [|reflexivity]. match goal with |- @eq _ ?a ?b => change (@eq R a b) end. ring.
Qed.
Lemma reads_s : forall dbg c c' l (a b : RF), cwf dbg c -> cwf dbg c' -> srel c c' -> (forall i v, In (i, v) l -> (i < dw_fsize (co_w c))%N) ->
  exists a1 b1 : RF, rfold dbg c l (a, b) = Ok (a1, b1) /\ rfold dbg c' l (((s * a)%R : RF), b) = Ok (((s * a1)%R : RF), b1).
Proof.
  intros dbg c c' l a b W W' Q. revert a b. unfold rfold. rewrite (sr_cfg _ _ Q).
  induction l as [|[i v] l IH]; intros a b B; cbn [foldm fst snd]; eauto.
  assert (Hi : (i < dw_fsize (co_w c))%N) by (apply (B i v); now left).
  destruct (read6 dbg c i W Hi) as (E & _). destruct (read6 dbg c' i W') as (E' & _); [now rewrite (sr_fs _ _ Q)|].
  rewrite E, E'. cbn [bind]. destruct (inner_s (co_cfg c) a b v _ _ (sr_rows _ _ Q i Hi)) as (a1 & b1 & F & F').
  rewrite F, F'. cbn [bind]. apply IH. intros j y Hj. apply (B j y). now right.
Qed.
Lemma betting_s : forall dbg c c' f w p cb, cwf dbg c -> cwf dbg c' -> srel c c' -> below (dw_fsize (co_w c)) f ->
  coin_betting_predict dbg c f w = Ok (p, cb) ->
  exists cb', coin_betting_predict dbg c' f w = Ok (((s * p)%R : RF), cb') /\ co_states cb' = co_states cb /\ co_avg cb' = co_avg cb.
Proof.
  intros dbg c c' f w p cb W W' Q Bf E. unfold coin_betting_predict in *. rewrite (sr_feats _ _ Q).
  destruct (feats_ok dbg c f W Bf) as (l & El & Bl). rewrite El in *. cbn [bind] in *.
  destruct (reads_s dbg c c' l f0 f0 W W' Q Bl) as (a1 & b1 & F & F'). unfold rfold in F, F'.
  assert (Z : ((s * @f0 RF)%R : RF) = f0) by (rewrite RF_f0; apply Rmult_0_r). rewrite Z in F'.
  rewrite F in E. rewrite F'. rewrite (sr_states _ _ Q). cbn [bind fst snd] in *.
  binv E. rewrite B. cbn [bind]. binv E.
  match type of B0 with f_clamp (f_div RF ?a ?m) _ _ = _ => set (avg := m) in * end.
  match goal with |- exists _, (let* _ := f_clamp ?y _ _ in _) = _ /\ _ => replace y with ((s * f_div RF a1 avg)%R : RF) by
    (match goal with |- @eq _ ?a ?b => change (@eq R a b) end; unfold avg; cbn [f_div RF]; unfold Rdiv; ring) end.
  rewrite (clamp_s _ _ _ _ _ _ (sr_rng _ _ Q) B0). cbn [bind]. inversion E; subst. eexists. split; [reflexivity|]. split; reflexivity.
Qed.
Lemma range_srel : forall c c' (y : RF), srel c c' -> srel (coin_range c y) (coin_range c' ((s * y)%R : RF)).
Proof. intros c c' y [A1 A2 A3 A4 A5 A6]. constructor; auto. cbn [coin_range co_min co_max]. now apply min_s. Qed.
Lemma range_cwf : forall dbg (c : coin RF) y, cwf dbg c -> cwf dbg (coin_range c y).
Proof. intros dbg c y []. constructor; auto. Qed.
Lemma step_s : forall dbg c0 c0' h h' c c' e, cinv dbg c0 h c -> cinv dbg c0' h' c' -> srel c c' -> co_loss c = LossSquared -> co_loss c' = LossSquared ->
  below (dw_fsize (co_w c0)) (ex_f e) -> dw_fsize (co_w c0') = dw_fsize (co_w c0) ->
  exists d d', coin_learn dbg c (ex_f e) (ex_y e) (ex_w e) = Ok d /\ coin_learn dbg c' (ex_f e) ((s * ex_y e)%R : RF) (ex_w e) = Ok d' /\
    cinv dbg c0 (h ++ [e]) d /\ cinv dbg c0' (h' ++ [scaled_ex s e]) d' /\ srel d d'.
Proof.
  intros dbg c0 c0' h h' c c' e I I' A Lo Lo' Be Fz.
  destruct (cinv_step RF_ford dbg c0 h c e I Be) as (d & Ed & Id).
  destruct (cinv_step RF_ford dbg c0' h' c' (scaled_ex s e) I') as (d' & Ed' & Id'); [cbn [scaled_ex ex_f]; now rewrite Fz|].
  cbn [scaled_ex ex_f ex_y ex_w] in Ed'. exists d, d'. split; auto. split; auto. split; auto. split; auto.
  assert (F : dw_fsize (co_w c) = dw_fsize (co_w c0)) by apply I.
  assert (F' : dw_fsize (co_w c') = dw_fsize (co_w c)) by apply A.
  destruct (learn_ok dbg c (ex_f e) (ex_y e) (ex_w e) (ci_wf _ _ _ _ I) ltac:(now rewrite F) (range_step RF_ford _ _ (ci_range _ _ _ _ I)))
    as (x & l & p & cb & u & E1 & W1 & El & Ep & Eu & M1 & M2 & C1 & _ & C3 & C4 & C5 & C6 & S1 & Rd).
  rewrite Ed in E1. inversion E1; subst x; clear E1.
  destruct (learn_ok dbg c' (ex_f e) ((s * ex_y e)%R : RF) (ex_w e) (ci_wf _ _ _ _ I') ltac:(now rewrite F', F) (range_step RF_ford _ _ (ci_range _ _ _ _ I')))
    as (x & l' & p' & cb' & u' & E1 & W1' & El' & Ep' & Eu' & M1' & M2' & C1' & _ & C3' & C4' & C5' & C6' & S1' & Rd').
  rewrite Ed' in E1. inversion E1; subst x; clear E1.
  rewrite (sr_feats _ _ A), El in El'. inversion El'; subst l'; clear El'.
  destruct (betting_s dbg (coin_range c (ex_y e)) (coin_range c' ((s * ex_y e)%R : RF)) (ex_f e) (ex_w e) p cb) as (cb2 & E2 & Es & Ea); auto.
  { apply range_cwf, I. } { apply range_cwf, I'. } { now apply range_srel. } { cbn [coin_range co_w]. now rewrite F. }
  rewrite E2 in Ep'. inversion Ep'; subst p' cb2; clear Ep'.
  destruct (learn_states _ _ _ _ _ _ _ _ Ed Ep) as (Q1 & _). destruct (learn_states _ _ _ _ _ _ _ _ Ed' E2) as (Q2 & _).
  pose proof (min_s (ex_y e) _ _ _ _ (sr_rng _ _ A)) as Rg.
  assert (U : u' = ((s * u)%R : RF)).
  { rewrite Eu, Eu', Lo, Lo'. cbn [loss_d1]. rewrite (d1_s _ _ _ _ p (ex_y e) Rg).
    - cbn [f_mul RF]. match goal with |- @eq _ ?a ?b => change (@eq R a b) end. ring.
    - pose proof (range_step RF_ford _ (ex_y e) (ci_range _ _ _ _ I)) as Q. cbn [f_leb RF] in Q.
      revert Q. match goal with |- Rleb ?a ?b = true -> _ => destruct (Rleb_spec a b) as [Q|Q]; [intros _; exact Q|discriminate] end. }
  constructor.
  - intros i Hi. assert (Hc : (i < dw_fsize (co_w c))%N) by (destruct S1 as (S1 & _); now rewrite S1 in Hi).
    rewrite Rd by auto. rewrite Rd' by now rewrite F'. rewrite U, (sr_cfg _ _ A), Ea. apply fold_s. now apply (sr_rows _ _ A).
  - destruct S1 as (S1 & _), S1' as (S1' & _). now rewrite S1, S1'.
  - congruence.
  - rewrite M1, M2, M1', M2'. exact Rg.
  - rewrite C1', C1. apply (sr_cfg _ _ A).
  - intros b f. pose proof (sr_feats _ _ A b f) as Q. unfold coin_feats in *. rewrite C3, C4, C5, C6, C3', C4', C5', C6'. exact Q.
Qed.
Lemma loss_kept : forall dbg c0 h (c : coin RF), cinv dbg c0 h c -> co_loss c0 = LossSquared -> co_loss c = LossSquared.
Proof. intros dbg c0 h c I E. now rewrite (ci_loss _ _ _ _ I). Qed.
Lemma train_s : forall dbg c0 c0' k h h' c c', cinv dbg c0 h c -> cinv dbg c0' h' c' -> srel c c' -> co_loss c0 = LossSquared -> co_loss c0' = LossSquared ->
  Forall (fun e => below (dw_fsize (co_w c0)) (ex_f e)) k -> dw_fsize (co_w c0') = dw_fsize (co_w c0) ->
  exists d d', train dbg k c = Ok d /\ train dbg (map (scaled_ex s) k) c' = Ok d' /\
    cinv dbg c0 (h ++ k) d /\ cinv dbg c0' (h' ++ map (scaled_ex s) k) d' /\ srel d d'.
Proof.
  intros dbg c0 c0' k. induction k as [|e k IH]; intros h h' c c' I I' A Lo Lo' B Fz; cbn [map].
  - exists c, c'. rewrite !app_nil_r. auto 10.
  - inversion B as [|? ? B1 B2]; subst.
    destruct (step_s dbg c0 c0' h h' c c' e I I' A) as (d & d' & E & E' & Id & Id' & Ad); eauto using loss_kept.
    destruct (IH _ _ d d' Id Id' Ad Lo Lo' B2 Fz) as (x & x' & Ex & Ex' & Ix & Ix' & Ax). rewrite <- app_assoc in Ix, Ix'.
    exists x, x'. unfold train in *. cbn [foldm scaled_ex ex_f ex_y ex_w]. rewrite E, E'. cbn [bind]. auto.
Qed.
Lemma predict_s : forall dbg c0 c0' h h' c c' f, cinv dbg c0 h c -> cinv dbg c0' h' c' -> srel c c' -> below (dw_fsize (co_w c0)) f ->
  exists q raw : RF, coin_predict dbg c f = Ok (PrScalar (link_fun (cc_link (co_cfg c)) q) raw) /\
    coin_predict dbg c' f = Ok (PrScalar (link_fun (cc_link (co_cfg c)) ((s * q)%R : RF)) ((s * raw)%R : RF)).
Proof.
  intros dbg c0 c0' h h' c c' f I I' A Bf. unfold coin_predict. rewrite (sr_feats _ _ A).
  assert (F : dw_fsize (co_w c) = dw_fsize (co_w c0)) by apply I.
  destruct (feats_ok dbg c f (ci_wf _ _ _ _ I)) as (l & El & Bl); [now rewrite F|]. rewrite El. cbn [bind].
  rewrite (dot_ok dbg c l (ci_wf _ _ _ _ I) Bl), (dot_ok dbg c' l (ci_wf _ _ _ _ I')) by (intros i v Hi; rewrite (sr_fs _ _ A); apply (Bl i v Hi)).
  cbn [bind f_isnan RF].
  assert (Dt : forall a : RF, dotf c' l ((s * a)%R : RF) = ((s * dotf c l a)%R : RF)).
  { unfold dotf. clear El. induction l as [|[i v] l IH]; intros a; cbn [fold_left fst snd]; auto.
    assert (Bl' : forall j y, In (j, y) l -> (j < dw_fsize (co_w c))%N) by (intros j y Hj; apply (Bl j y); now right).
    rewrite <- IH by auto. f_equal. destruct (sr_rows _ _ A i (Bl i v (or_introl eq_refl))) as (_ & _ & Xt & _). unfold fld, sg, W_XT in Xt.
    cbn [f_add f_mul RF]. rewrite Xt. match goal with |- @eq _ ?a ?b => change (@eq R a b) end. ring. }
  specialize (Dt f0). assert (Z : ((s * @f0 RF)%R : RF) = f0) by (rewrite RF_f0; apply Rmult_0_r). rewrite Z in Dt. unfold dotf in Dt. rewrite Dt.
  set (raw := fold_left _ l f0). destruct (f_clamp raw (co_min c) (co_max c)) as [q|x|x] eqn:Cl.
  - rewrite (clamp_s _ _ _ _ _ _ (sr_rng _ _ A) Cl). cbn [bind]. exists q, raw. rewrite (sr_cfg _ _ A). auto.
  - unfold f_clamp in Cl. rewrite (ci_range _ _ _ _ I) in Cl. discriminate.
  - unfold f_clamp in Cl. rewrite (ci_range _ _ _ _ I) in Cl. discriminate.
Qed.
Lemma new_s : forall H dbg (cfg : coin_config RF) gc nma c0, coin_new H dbg cfg gc nma = Ok c0 -> (0 < nma < 2 ^ 8)%N ->
  cc_loss cfg = LossSquared \/ Rabs s = 1 ->
  exists c0', coin_new H dbg (scaled_cfg s cfg) gc nma = Ok c0' /\ srel c0 c0'.
Proof.
  intros H dbg cfg gc nma c0 E Hn Hl. pose proof E as E0. unfold coin_new in E. binv E.
  assert (X : exists c0', coin_new H dbg (scaled_cfg s cfg) gc nma = Ok c0' /\ co_w c0' = co_w c0 /\ co_states c0' = co_states c0 /\
     (forall dbg f, coin_feats dbg c0' f = coin_feats dbg c0 f)).
  { unfold coin_new. rewrite B. cbn [bind cc_loss scaled_cfg]. destruct (cc_loss cfg); binv E; binv E; inversion E; subst;
    rewrite B0; cbn [bind]; rewrite B1; cbn [bind]; (eexists; split; [reflexivity|]; repeat split). }
  destruct X as (c0' & E' & Ew & Es & Ef). exists c0'. split; auto.
  destruct (coin_new_wf _ _ _ _ _ _ E0 Hn) as (W & _ & L & U & C & _ & Z0). destruct (coin_new_wf _ _ _ _ _ _ E' Hn) as (_ & _ & L' & U' & C' & _).
  constructor; auto.
  - intros i Hi. rewrite Ew, (read_zeros _ _ _ (cw_wf _ _ W) Hi (cw_ms _ _ W) Z0), (cw_ss _ _ W).
    change (repeat (@f0 RF) (N.to_nat 6)) with [@f0 RF; @f0 RF; @f0 RF; @f0 RF; @f0 RF; @f0 RF]. rewrite RF_f0.
    unfold rs, fld. cbn [length sg nth W_XT W_ZT W_G2 W_MX W_WE W_MG].
    assert (Z : forall z : R, 0 = z * 0) by (intros; ring). repeat split; apply Z.
  - now rewrite Ew.
  - rewrite L, U, L', U'. unfold lo0, hi0, rng. cbn [cc_loss scaled_cfg]. destruct (cc_loss cfg).
    + rewrite RF_f0. destruct (Rtotal_order s 0) as [Q|[Q|Q]]; [right|contradiction|left]; (split; [exact Q|split; ring]).
    + destruct Hl as [Hl|Hl]; [discriminate|]. cbn [f_neg RF]. rewrite RF_fl.
      unfold Rabs in Hl. destruct (Rcase_abs s) as [Q|Q]; [right|left]; repeat split; auto; try lra.
  - rewrite C, C'. reflexivity.
Qed.
End Scale.
Lemma scale_main : forall H dbg (cfg : coin_config RF) gc nma n (c0 : coin RF) s h f, s <> 0 ->
  coin_new H dbg cfg gc nma = Ok c0 -> (0 < nma < 2 ^ 8)%N -> bits_to_max_feature_index dbg (gc_bits gc) = Ok n ->
  cc_loss cfg = LossSquared \/ Rabs s = 1 ->
  Forall (fun e => below n (ex_f e)) h -> below n f ->
  exists c0' c c' q raw, coin_new H dbg (scaled_cfg s cfg) gc nma = Ok c0' /\
    train dbg h c0 = Ok c /\ train dbg (map (scaled_ex s) h) c0' = Ok c' /\
    coin_predict dbg c f = Ok (PrScalar (link_fun (cc_link cfg) q) raw) /\
    coin_predict dbg c' f = Ok (PrScalar (link_fun (cc_link cfg) ((s * q)%R : RF)) ((s * raw)%R : RF)).
Proof.
  intros H dbg cfg gc nma n c0 s h f s0 E Hn Hb Hl Bh Bf.
  destruct (new_s s s0 H dbg cfg gc nma c0 E Hn Hl) as (c0' & E' & A).
  destruct (coin_new_wf _ _ _ _ _ _ E Hn) as (W & B & _ & _ & C & Lo & _). destruct (coin_new_wf _ _ _ _ _ _ E' Hn) as (_ & _ & _ & _ & _ & Lo' & _).
  rewrite Hb in B. inversion B; subst n; clear B.
  destruct (train_s s s0 dbg c0 c0' h [] [] c0 c0' (cinv_init RF_ford _ _ _ _ _ _ E Hn) (cinv_init RF_ford _ _ _ _ _ _ E' Hn) A Lo Lo' Bh (sr_fs _ _ _ A))
    as (c & c' & Ec & Ec' & I & I' & Ac).
  destruct (predict_s s s0 dbg c0 c0' _ _ c c' f I I' Ac Bf) as (q & raw & P & P'). rewrite (ci_cfg _ _ _ _ I), C in P, P'.
  exists c0', c, c', q, raw. auto 10.
Qed.
Lemma mirror_main : forall H dbg (cfg : coin_config RF) gc nma n (c0 : coin RF) h f,
  coin_new H dbg cfg gc nma = Ok c0 -> (0 < nma < 2 ^ 8)%N -> bits_to_max_feature_index dbg (gc_bits gc) = Ok n ->
  Forall (fun e => below n (ex_f e)) h -> below n f ->
  exists c c' (q raw : RF), train dbg h c0 = Ok c /\ train dbg (map (fun e => mkEx (ex_f e) (f_neg RF (ex_y e)) (ex_w e)) h) c0 = Ok c' /\
    coin_predict dbg c f = Ok (PrScalar (link_fun (cc_link cfg) q) raw) /\
    coin_predict dbg c' f = Ok (PrScalar (link_fun (cc_link cfg) (f_neg RF q)) (f_neg RF raw)).
Proof.
  intros H dbg cfg gc nma n c0 h f E Hn Hb Bh Bf.
  assert (Z : -1 <> 0) by lra. assert (A1 : Rabs (-1) = 1) by (rewrite Rabs_left; lra).
  destruct (scale_main H dbg cfg gc nma n c0 (-1) h f Z E Hn Hb (or_intror A1) Bh Bf) as (c0' & c & c' & q & raw & E' & T & T' & P & P').
  assert (Cf : scaled_cfg (-1) cfg = cfg).
  { assert (Sq : forall a : R, -1 * -1 * a = a) by (intros; ring). unfold scaled_cfg. rewrite A1, Sq, Rmult_1_l. now destruct cfg. }
  rewrite Cf, E in E'. inversion E'; subst c0'.
  assert (Ng : forall x : R, -1 * x = - x) by (intros; ring).
  assert (Eh : map (scaled_ex (-1)) h = map (fun e : example RF => mkEx (ex_f e) (f_neg RF (ex_y e)) (ex_w e)) h).
  { apply map_ext. intros e. unfold scaled_ex. now rewrite Ng. }
  rewrite Eh in T'. rewrite !Ng in P'. exists c, c', q, raw. auto.
Qed.
