(** The regret of the coin regressor in exact arithmetic (C67). *)
From Coq Require Import List NArith ZArith Bool Lia Reals Lra.
From Verif Require Import Base FloatOps FloatR Model_Hash Model_Features Model_Weights Model_Loss
  Model_Interactions Model_Types Model_Coin Proof_Hash Proof_Weights Spec_Weights Proof_WeightsProps
  Proof_Foreach Proof_FloatOrder Spec_Coin Spec_Regret Proof_Coin Proof_CoinR Proof_Betting Proof_Bettor.
Import ListNotations.
Open Scope R_scope.

(** *** sums over indices *)
Lemma sum_ext : forall f g l, (forall i, In i l -> f i = g i) -> sum_of f l = sum_of g l.
Proof. intros f g l. induction l; intros H; cbn [sum_of fold_right]; auto. rewrite H by now left. f_equal. apply IHl. intros; apply H; now right. Qed.
Lemma sum_le : forall f g l, (forall i, In i l -> f i <= g i) -> sum_of f l <= sum_of g l.
Proof.
  intros f g l. induction l; intros H; cbn [sum_of fold_right]; [lra|].
  apply Rplus_le_compat; [apply H; now left|apply IHl; intros; apply H; now right].
Qed.
Lemma sum_skip : forall f g j l, ~ In j l -> sum_of (fun i => if N.eqb j i then f i else g i) l = sum_of g l.
Proof.
  intros f g j l N. apply sum_ext. intros i Hi. destruct (N.eqb_spec j i); auto. subst. contradiction.
Qed.
Lemma sum_upd : forall f g j l, NoDup l -> In j l -> sum_of (fun i => if N.eqb j i then f i else g i) l = sum_of g l + (f j - g j).
Proof.
  intros f g j l. induction l as [|k l IH]; intros N J; [contradiction|]. inversion N as [|? ? N1 N2]; subst.
  cbn [sum_of fold_right]. destruct (N.eqb_spec j k) as [-> |D].
  - fold (sum_of (fun i => if N.eqb k i then f i else g i) l). rewrite sum_skip by auto. fold (sum_of g l). lra.
  - destruct J as [J|J]; [congruence|]. fold (sum_of (fun i => if N.eqb j i then f i else g i) l). rewrite IH by auto. fold (sum_of g l). lra.
Qed.

(** *** the potential over a list of features *)
Definition value (u : N -> R) (i : N) (st : list RF) : R := u i * fld st W_ZT - fld st W_WE.
Definition lsum (f : N * RF -> R) (l : list (N * RF)) : R := fold_right (fun iv a => f iv + a) 0 l.
Definition folded (cfg : coin_config RF) (avg upd : RF) (l : list (N * RF)) (i : N) (st : list RF) : list RF :=
  fold_left (fun st iv => if N.eqb (fst iv) i then iu cfg avg upd (snd iv) st else st) l st.
Lemma lsum_ext : forall f g l, (forall iv, In iv l -> f iv = g iv) -> lsum f l = lsum g l.
Proof. intros f g l. induction l; intros H; cbn [lsum fold_right]; auto. rewrite H by now left. f_equal. apply IHl. intros; apply H; now right. Qed.
Lemma potential_fold : forall (cfg : coin_config RF) (avg upd : RF) u idx l (st : N -> list RF), NoDup idx -> NoDup (map fst l) ->
  (forall i v, In (i, v) l -> In i idx) ->
  sum_of (fun i => value u i (folded cfg avg upd l i (st i))) idx =
  sum_of (fun i => value u i (st i)) idx +
  lsum (fun iv => value u (fst iv) (iu cfg avg upd (snd iv) (st (fst iv))) - value u (fst iv) (st (fst iv))) l.
Proof.
  intros cfg avg upd u idx l. induction l as [|[j x] l IH]; intros st N D B.
  - cbn [lsum fold_right]. unfold folded. cbn [fold_left]. lra.
  - cbn [map fst] in D. inversion D as [|? ? D1 D2]; subst.
    transitivity (sum_of (fun i => value u i (folded cfg avg upd l i ((fun i => if N.eqb j i then iu cfg avg upd x (st i) else st i) i))) idx).
    { apply sum_ext. intros i _. reflexivity. }
    rewrite IH by (auto; intros i v Hi; apply (B i v); now right).
    assert (E : sum_of (fun i => value u i (if N.eqb j i then iu cfg avg upd x (st i) else st i)) idx =
      sum_of (fun i => value u i (st i)) idx + (value u j (iu cfg avg upd x (st j)) - value u j (st j))).
    { rewrite <- (sum_upd (fun i => value u i (iu cfg avg upd x (st i))) (fun i => value u i (st i)) j idx N); [|apply (B j x); now left].
      apply sum_ext. intros i _. destruct (N.eqb j i); reflexivity. }
    rewrite E. cbn [lsum fold_right fst snd].
    rewrite (lsum_ext (fun iv => value u (fst iv) (iu cfg avg upd (snd iv) (if N.eqb j (fst iv) then iu cfg avg upd x (st (fst iv)) else st (fst iv)))
         - value u (fst iv) (if N.eqb j (fst iv) then iu cfg avg upd x (st (fst iv)) else st (fst iv)))
       (fun iv => value u (fst iv) (iu cfg avg upd (snd iv) (st (fst iv))) - value u (fst iv) (st (fst iv))) l).
    { unfold lsum. lra. }
    intros [k y] Hk. cbn [fst snd]. destruct (N.eqb_spec j k); auto. subst. exfalso. apply D1. apply in_map_iff. now exists (k, y).
Qed.

(** *** what holds for a stored state after [t] examples *)
Record kept (cfg : coin_config RF) (xi xmax : R) (t : nat) (st : list RF) : Prop := mkKept {
  ke_gr : grown cfg xi st;
  ke_mg : fld st W_MG = 0 \/ fld st W_MG = cc_beta cfg;
  ke_mx : fld st W_MX <= xmax;
  ke_g2 : fld st W_G2 <= INR t * (cc_beta cfg * xmax)
}.
Lemma kept_more : forall (cfg : coin_config RF) xi xmax t st, 0 < (cc_beta cfg : R) -> 0 <= xmax -> kept cfg xi xmax t st -> kept cfg xi xmax (S t) st.
Proof.
  intros cfg xi xmax t st B X [G M Mx G2]. constructor; auto. rewrite S_INR. pose proof (Rmult_le_pos _ _ (Rlt_le _ _ B) X). lra.
Qed.
Lemma kept_step : forall (cfg : coin_config RF) xi xmax t (avg u x : RF) st, 0 < (cc_alpha cfg : R) -> 0 < (cc_beta cfg : R) -> 0 < xi ->
  ((x : R) = 0 \/ xi <= Rabs x) -> Rabs x <= xmax -> Rabs u <= cc_beta cfg ->
  kept cfg xi xmax t st -> kept cfg xi xmax (S t) (iu cfg avg u x st).
Proof.
  intros cfg xi xmax t avg u x st A B X Hx Hm Hu [G M Mx G2]. pose proof (gr_so _ _ _ G) as So.
  destruct (iu_real cfg avg u x st (so_len _ _ So)) as (L' & Xe & Ge & Ez & Eg & Ew & _).
  constructor.
  - now apply grown_step.
  - destruct Ge as [(Ge & ->)|(Ge & ->)]; auto. right. apply Rmax_right. exact Hu.
  - rewrite Xe. now apply Rmax_lub.
  - rewrite Eg, S_INR. rewrite Rabs_mult. pose proof (Rabs_pos x). pose proof (Rabs_pos u).
    assert (Rabs u * Rabs x <= cc_beta cfg * xmax) by (apply Rmult_le_compat; auto). lra.
Qed.
(** the weight used by the prediction is the bet *)
Lemma bet_same : forall (cfg : coin_config RF) xi xmax t (avg u x : RF) st, Rabs u <= cc_beta cfg -> kept cfg xi xmax t st ->
  let st' := iu cfg avg u x st in
  bet (cc_alpha cfg) (fld st' W_MG * fld st' W_MX) (fld st W_ZT) (fld st W_G2) (fld st W_WE) =
  bet (cc_alpha cfg) (fld st W_MG * Rmax (fld st W_MX) (Rabs x)) (fld st W_ZT) (fld st W_G2) (fld st W_WE).
Proof.
  intros cfg xi xmax t avg u x st Hu [G M Mx G2] st'. pose proof (gr_so _ _ _ G) as So.
  destruct (iu_real cfg avg u x st (so_len _ _ So)) as (L' & Xe & Ge & Ez & Eg & Ew & _). fold st' in Xe, Ge. rewrite Xe.
  destruct Ge as [(Ge & ->)|(Ge & Q)]; auto. destruct M as [M|M].
  - destruct (gr_0 _ _ _ G) as (-> & _); [rewrite M; ring|]. unfold bet. rewrite M, Rmult_0_l.
    destruct (Rltb 0 (fld st' W_MG * _)), (Rltb 0 0); ring.
  - lra.
Qed.
Definition bet_of (cfg : coin_config RF) (x : RF) (st : list RF) : R :=
  bet (cc_alpha cfg) (fld st W_MG * Rmax (fld st W_MX) (Rabs x)) (fld st W_ZT) (fld st W_G2) (fld st W_WE).
Lemma value_step : forall (cfg : coin_config RF) xi xmax t (avg u x : RF) w i st, Rabs u <= cc_beta cfg -> kept cfg xi xmax t st ->
  value w i (iu cfg avg u x st) - value w i st = u * (bet_of cfg x st * x - w i * x).
Proof.
  intros cfg xi xmax t avg u x w i st Hu K. pose proof (bet_same cfg xi xmax t avg u x st Hu K) as Q.
  pose proof (gr_so _ _ _ (ke_gr _ _ _ _ _ K)) as So. destruct (iu_real cfg avg u x st (so_len _ _ So)) as (L' & Xe & Ge & Ez & Eg & Ew & _).
  unfold value. cbv zeta in Q. rewrite Q in Ew. fold (bet_of cfg x st) in Ew. rewrite Ez, Ew. ring.
Qed.

(** *** one example *)
Lemma predict_fold : forall dbg (c : coin RF) l (a b : R), cwf dbg c -> (forall i v, In (i, v) l -> (i < dw_fsize (co_w c))%N) ->
  exists nx : R, foldm (fun acc iv => let* st := dw_state_at dbg (co_w c) (fst iv) 0 in inner_predict (co_cfg c) acc (snd iv) st) l (a : RF, b : RF)
    = Ok ((a + lsum (fun iv => bet_of (co_cfg c) (snd iv) (read (co_w c) (fst iv) 0) * snd iv) l : R) : RF, nx : RF) /\ b <= nx.
Proof.
  intros dbg c l. induction l as [|[i v] l IH]; intros a b W B; cbn [foldm fst snd].
  - exists b. cbn [lsum fold_right]. split; [do 2 f_equal; ring|lra].
  - destruct (read6 dbg c i W) as (E & L); [apply (B i v); now left|]. rewrite E. cbn [bind].
    assert (B' : forall i v, In (i, v) l -> (i < dw_fsize (co_w c))%N) by (intros j x Hj; apply (B j x); now right).
    set (st := read (co_w c) i 0) in *.
    set (b' := (if Rltb 0 (Rmax (fld st W_MX) (Rabs v)) then b + v / Rmax (fld st W_MX) (Rabs v) * (v / Rmax (fld st W_MX) (Rabs v)) else b)).
    assert (Ei : inner_predict (co_cfg c) (a : RF, b : RF) v st = Ok ((a + bet_of (co_cfg c) v st * v : R) : RF, b' : RF)).
    { unfold inner_predict. rewrite L. cbn [Nat.eqb]. rewrite RF_max, !RF_gtb, RF_f0. reflexivity. }
    rewrite Ei. cbn [bind]. destruct (IH (a + bet_of (co_cfg c) v st * v) b' W B') as (nx & En & Hn). exists nx. rewrite En. split.
    + do 2 f_equal. cbn [lsum fold_right fst snd]. fold st. unfold lsum. ring.
    + apply Rle_trans with b'; auto. unfold b'. destruct (Rltb 0 _); [|lra].
      pose proof (Rle_0_sqr (v / Rmax (fld st W_MX) (Rabs v))) as Q. unfold Rsqr in Q. lra.
Qed.
Lemma clamp_real : forall x lo hi : R, lo <= hi ->
  exists q : R, @f_clamp RF x lo hi = Ok q /\ lo <= q <= hi /\ (forall y, lo <= y <= hi -> (q - y) * (q - x) <= 0).
Proof.
  intros x lo hi H. unfold f_clamp. cbn [f_leb f_ltb RF]. destruct (Rleb_spec lo hi); [|lra].
  eexists. split; [reflexivity|]. destruct (Rltb_spec x lo).
  - destruct (Rltb_spec hi lo); [lra|]. split; [lra|]. intros y Y. nra.
  - destruct (Rltb_spec hi x); (split; [lra|]); intros y Y; nra.
Qed.
Lemma lsum_diff : forall f g (k : R) l, lsum (fun iv => k * (f iv - g iv)) l = k * (lsum f l - lsum g l).
Proof. intros f g k l. induction l as [|x l IH]; cbn [lsum fold_right]; [ring|]. unfold lsum in *. rewrite IH. ring. Qed.
Lemma convex_clamped : forall p q d y, (p - y) * (p - q) <= 0 ->
  (p - y) * (p - y) - (d - y) * (d - y) <= 2 * (p - y) * (q - d).
Proof. intros p q d y H. pose proof (Rle_0_sqr (p - d)) as Q. unfold Rsqr in Q. nra. Qed.

Record rinv (dbg : bool) (c0 : coin RF) (lo hi xi xmax : R) (h : list (example RF)) (c : coin RF) : Prop := mkRinv {
  ri_c : cinv dbg c0 h c;
  ri_lo : lo <= co_min c;
  ri_r : (co_min c : R) <= co_max c;
  ri_hi : co_max c <= hi;
  ri_loss : co_loss c = LossSquared;
  ri_st : exists ms ss, co_states c = ms :: ss /\ 0 <= (fst ms : R) /\ 0 <= (snd ms : R);
  ri_k : forall i, (i < dw_fsize (co_w c))%N -> kept (co_cfg c0) xi xmax (length h) (read (co_w c) i 0)
}.
Lemma learn_states : forall dbg (c c' : coin RF) f y w pc, coin_learn dbg c f y w = Ok c' ->
  coin_betting_predict dbg (coin_range c y) f w = Ok pc -> co_states c' = co_states (snd pc).
Proof.
  intros dbg c c' f y w pc E Ep. unfold coin_learn in E. rewrite Ep in E. cbn [bind] in E. unfold coin_update in E.
  apply bind_ok in E. destruct E as (l & _ & E). apply bind_ok in E. destruct E as (w' & _ & E). inversion E. reflexivity.
Qed.
Lemma regret_step : forall dbg (c0 : coin RF) lo hi xi xmax wmax idx h c e u,
  0 < (cc_alpha (co_cfg c0) : R) -> 0 < (cc_beta (co_cfg c0) : R) -> 0 < xi <= xmax -> 2 * (hi - lo) * wmax <= cc_beta (co_cfg c0) ->
  NoDup idx -> Forall (fun i => (i < dw_fsize (co_w c0))%N) idx ->
  rinv dbg c0 lo hi xi xmax h c -> tame dbg c0 (dw_fsize (co_w c0)) idx xi xmax lo hi wmax e ->
  exists l p avg c', coin_feats dbg c (ex_f e) = Ok l /\ announced dbg c e = Ok (p, avg) /\
    coin_learn dbg c (ex_f e) (ex_y e) (ex_w e) = Ok c' /\ rinv dbg c0 lo hi xi xmax (h ++ [e]) c' /\
    excess1 u l p avg (ex_y e) (ex_w e) <=
      sum_of (fun i => value u i (read (co_w c') i 0)) idx - sum_of (fun i => value u i (read (co_w c) i 0)) idx.
Proof.
  intros dbg c0 lo hi xi xmax wmax idx h c e u A B X Hb Ni Bi [I Rl Rr Rh Lo St K] (Bf & Y & Wt & l & El & Nl & Vl).
  destruct (cinv_step RF_ford dbg c0 h c e I Bf) as (c1 & E1 & I1).
  pose proof I as [W Sh Rg Mi Ma Cf Lo' Fe].
  assert (Fs : dw_fsize (co_w c) = dw_fsize (co_w c0)) by apply Sh.
  assert (B' : below (dw_fsize (co_w c)) (ex_f e)) by now rewrite Fs.
  destruct (learn_ok dbg c (ex_f e) (ex_y e) (ex_w e) W B' (range_step RF_ford _ _ Rg))
    as (c' & l' & p & cb & up & E' & W' & El' & Ep & Eu & M1 & M2 & C1 & C2 & C3 & C4 & C5 & C6 & S' & Rd).
  rewrite E1 in E'. inversion E'; subst c'; clear E'. rewrite Fe, El in El'. inversion El'; subst l'; clear El'.
  assert (Bl : forall i v, In (i, v) l -> (i < dw_fsize (co_w c))%N).
  { destruct (feats_ok dbg c (ex_f e) W B') as (l' & Q & Bl). rewrite Fe, El in Q. inversion Q. subst. exact Bl. }
  (* the range *)
  set (mn := Rmin (ex_y e) (co_min c)). set (mx := Rmax (ex_y e) (co_max c)).
  assert (Hmn : lo <= mn <= ex_y e) by (unfold mn; split; [apply Rmin_glb; lra|apply Rmin_l]).
  assert (Hmx : ex_y e <= mx <= hi) by (unfold mx; split; [apply Rmax_l|apply Rmax_lub; lra]).
  (* the prediction *)
  pose proof Ep as Ep'. unfold coin_betting_predict in Ep.
  assert (Wr : cwf dbg (coin_range c (ex_y e))) by (destruct W; constructor; auto).
  destruct (predict_fold dbg (coin_range c (ex_y e)) l 0 0 Wr) as (nx & En & Hnx); [exact Bl|].
  change (coin_feats dbg (coin_range c (ex_y e)) (ex_f e)) with (coin_feats dbg c (ex_f e)) in Ep. rewrite Fe, El in Ep. cbn [bind] in Ep.
  rewrite RF_f0 in Ep. rewrite En in Ep. cbn [bind] in Ep.
  destruct St as (ms & ss & Es & Sn & Sw).
  change (co_states (coin_range c (ex_y e))) with (co_states c) in Ep. rewrite Es in Ep. cbn [nth_error opt_or bind fst snd upd] in Ep.
  change (co_min (coin_range c (ex_y e))) with (@f_min RF (ex_y e) (co_min c)) in Ep.
  change (co_max (coin_range c (ex_y e))) with (@f_max RF (ex_y e) (co_max c)) in Ep.
  rewrite RF_min, RF_max in Ep. fold mn mx in Ep.
  change (co_cfg (coin_range c (ex_y e))) with (co_cfg c) in *. change (co_w (coin_range c (ex_y e))) with (co_w c) in *.
  set (q0 := 0 + lsum (fun iv => bet_of (co_cfg c) (snd iv) (read (co_w c) (fst iv) 0) * snd iv) l) in Ep.
  cbn [f_add f_mul f_div f_lit RF] in Ep.
  set (avg := ((fst ms + nx * ex_w e + 1 / 1000000) / (snd ms + ex_w e))) in Ep.
  assert (Pa : 0 < avg).
  { unfold avg. apply Rdiv_lt_0_compat; [|lra]. assert (0 <= nx * ex_w e) by (apply Rmult_le_pos; lra). lra. }
  destruct (clamp_real (q0 / avg) mn mx) as (q & Eq & Hq & Hc); [lra|].
  apply bind_ok in Ep. destruct Ep as (p' & Epc & Ep). change (@f_clamp RF (q0 / avg) mn mx = Ok p') in Epc.
  rewrite Eq in Epc. inversion Epc; subst p'; clear Epc. inversion Ep as [[Ep1 Ep2]]. clear Ep.
  assert (Ec : co_avg cb = avg) by (rewrite <- Ep2; reflexivity).
  (* the update *)
  assert (Eu' : (up : R) = 2 * (p - ex_y e) * ex_w e).
  { rewrite Eu, Lo. cbn [loss_d1]. unfold sq_d1. rewrite RF_min, RF_max. fold mn mx. rewrite RF_gtb. cbn [f_ltb f_mul f_sub RF]. rewrite <- Ep1.
    destruct (Rltb_spec q mn); [lra|]. destruct (Rltb_spec mx q); [lra|]. rewrite RF_fl. ring. }
  rewrite Ep1 in *.
  assert (Hu : Rabs up <= cc_beta (co_cfg c0)).
  { rewrite Eu', Rabs_mult, Rabs_mult. rewrite (Rabs_right 2) by lra. rewrite (Rabs_right (ex_w e)) by lra.
    eapply Rle_trans; [|exact Hb]. apply Rmult_le_compat; try lra.
    - pose proof (Rabs_pos (p - ex_y e)). lra.
    - apply Rmult_le_compat_l; [lra|]. unfold Rabs. destruct (Rcase_abs (p - ex_y e)); lra. }
  exists l, p, avg, c1. split; [now rewrite Fe|]. split.
  { unfold announced. rewrite Ep'. cbn [bind fst snd]. rewrite Ec. reflexivity. }
  split; auto. split.
  - constructor; auto.
    + rewrite M1, RF_min. fold mn. lra.
    + rewrite M1, M2, RF_min, RF_max. fold mn mx. lra.
    + rewrite M2, RF_max. fold mx. lra.
    + congruence.
    + rewrite (learn_states _ _ _ _ _ _ _ E1 Ep'). rewrite <- Ep2. cbn [snd co_states]. eexists _, ss. split; [reflexivity|]. cbn [fst snd].
      assert (0 <= ex_w e) by lra. split; apply Rplus_le_le_0_compat; auto. apply Rmult_le_pos; auto.
    + intros i Hi. assert (Hi' : (i < dw_fsize (co_w c))%N) by (destruct S' as (S' & _); now rewrite S' in Hi).
      rewrite Rd by auto. rewrite app_length, Nat.add_1_r. rewrite Cf. 
      destruct (in_dec N.eq_dec i (map fst l)) as [J|J].
      * apply in_map_iff in J. destruct J as ([j v] & Q & J). cbn [fst] in Q. subst j. apply in_split in J. destruct J as (l1 & l2 & ->).
        rewrite (fold_once _ (fun st x => iu (co_cfg c0) (co_avg cb) up x st)).
        -- destruct (Vl i v) as (_ & V1 & V2); [apply in_app_iff; right; now left|].
           apply kept_step; auto. lra.
        -- rewrite map_app in Nl. cbn [map fst] in Nl. apply NoDup_remove_2 in Nl. rewrite <- map_app in Nl.
           intros x Hx. apply Nl. apply in_map_iff. now exists (i, x).
      * rewrite (fold_skip _ (fun st x => iu (co_cfg c0) (co_avg cb) up x st)).
        -- apply kept_more; auto. lra.
        -- intros v Hv. apply J. apply in_map_iff. now exists (i, v).
  - (* the loss *)
    assert (Sm : sum_of (fun i => value u i (read (co_w c1) i 0)) idx =
      sum_of (fun i => value u i (folded (co_cfg c0) (co_avg cb) up l i (read (co_w c) i 0))) idx).
    { apply sum_ext. intros i Hi. rewrite Forall_forall in Bi. rewrite Rd by (rewrite Fs; now apply Bi). rewrite Cf. reflexivity. }
    rewrite Sm. rewrite (potential_fold (co_cfg c0) (co_avg cb) up u idx l (fun i => read (co_w c) i 0)); auto; [|intros i v Hv; now apply (Vl i v)].
    rewrite (lsum_ext _ (fun iv => up * (bet_of (co_cfg c) (snd iv) (read (co_w c) (fst iv) 0) * snd iv - u (fst iv) * snd iv)) l).
    2:{ intros [i v] Hv. cbn [fst snd]. rewrite Cf. apply (value_step _ xi xmax (length h)); auto. apply K. now apply (Bl i v). }
    rewrite (lsum_diff (fun iv => bet_of (co_cfg c) (snd iv) (read (co_w c) (fst iv) 0) * snd iv) (fun iv => u (fst iv) * snd iv)).
    change (lsum (fun iv => u (fst iv) * snd iv) l) with (dot u l).
    replace (lsum (fun iv => bet_of (co_cfg c) (snd iv) (read (co_w c) (fst iv) 0) * snd iv) l) with q0 by (unfold q0; ring).
    unfold excess1. rewrite Eu'.
    pose proof (convex_clamped p (q0 / avg) (dot u l / avg) (ex_y e) (Hc (ex_y e) ltac:(lra))) as Q.
    assert (Pw : 0 <= ex_w e * avg) by (apply Rmult_le_pos; lra).
    apply Rmult_le_compat_l with (r := ex_w e * avg) in Q; auto.
    replace (ex_w e * avg * (2 * (p - ex_y e) * (q0 / avg - dot u l / avg))) with (2 * (p - ex_y e) * ex_w e * (q0 - dot u l)) in Q by (field; lra).
    lra.
Qed.

(** *** the run *)
Lemma regret_run : forall dbg (c0 : coin RF) lo hi xi xmax wmax idx u,
  0 < (cc_alpha (co_cfg c0) : R) -> 0 < (cc_beta (co_cfg c0) : R) -> 0 < xi <= xmax -> 2 * (hi - lo) * wmax <= cc_beta (co_cfg c0) ->
  NoDup idx -> Forall (fun i => (i < dw_fsize (co_w c0))%N) idx ->
  forall k h c, rinv dbg c0 lo hi xi xmax h c -> Forall (tame dbg c0 (dw_fsize (co_w c0)) idx xi xmax lo hi wmax) k ->
  exists r c', excess dbg u k c = Ok r /\ rinv dbg c0 lo hi xi xmax (h ++ k) c' /\
    r <= sum_of (fun i => value u i (read (co_w c') i 0)) idx - sum_of (fun i => value u i (read (co_w c) i 0)) idx.
Proof.
  intros dbg c0 lo hi xi xmax wmax idx u A B X Hb Ni Bi k. induction k as [|e k IH]; intros h c I T.
  - exists 0, c. rewrite app_nil_r. split; [reflexivity|]. split; auto. lra.
  - inversion T as [|? ? T1 T2]; subst.
    destruct (regret_step dbg c0 lo hi xi xmax wmax idx h c e u A B X Hb Ni Bi I T1) as (l & p & avg & c1 & El & Ea & E1 & I1 & L1).
    destruct (IH _ _ I1 T2) as (r & c2 & Er & I2 & L2). rewrite <- app_assoc in I2.
    exists (excess1 u l p avg (ex_y e) (ex_w e) + r), c2. split.
    { cbn [excess]. rewrite El. cbn [bind]. rewrite Ea. cbn [bind]. rewrite E1. cbn [bind]. rewrite Er. reflexivity. }
    split; auto. lra.
Qed.
Lemma regret_formula : forall alpha beta xi xmax (t u : R), 0 < alpha -> 0 < beta -> 0 < xi -> 0 <= xmax -> 0 <= t ->
  regret alpha (beta * xi) (beta * xmax) (t * (beta * xmax)) u =
  alpha + Rabs u * (beta * xmax * sqrt (2 * t * ln (1 + exp 1 * Rabs u * t * (t + 1) * (beta * (xmax * xmax)) / (alpha * xi)))).
Proof.
  intros alpha beta xi xmax t u A B X M T. unfold regret. f_equal. f_equal.
  replace (exp 1 * Rabs u * (t * (beta * xmax)) * (beta * xmax + t * (beta * xmax)) / (alpha * (beta * xi)))
    with (exp 1 * Rabs u * t * (t + 1) * (beta * (xmax * xmax)) / (alpha * xi)) by (field; repeat split; lra).
  set (k := ln _).
  replace (2 * (beta * xmax) * (t * (beta * xmax)) * k) with ((beta * xmax) * (beta * xmax) * (2 * t * k)) by ring.
  rewrite sqrt_mult_alt by nra. rewrite sqrt_square by nra. reflexivity.
Qed.
Lemma regret_main : forall H dbg (cfg : coin_config RF) gc nma n (c0 : coin RF) idx xi xmax lo hi wmax h u,
  coin_new H dbg cfg gc nma = Ok c0 -> (0 < nma < 2 ^ 8)%N ->
  bits_to_max_feature_index dbg (gc_bits gc) = Ok n ->
  0 < (cc_alpha cfg : R) -> 0 < (cc_beta cfg : R) -> 0 < xi <= xmax ->
  lo <= lo0 cfg -> hi0 cfg <= hi -> 2 * (hi - lo) * wmax <= cc_beta cfg ->
  NoDup idx -> Forall (fun i => (i < n)%N) idx -> Forall (tame dbg c0 n idx xi xmax lo hi wmax) h ->
  exists r, excess dbg u h c0 = Ok r /\
    let t := INR (length h) in
    r <= sum_of (fun i => cc_alpha cfg + Rabs (u i) * (cc_beta cfg * xmax *
           sqrt (2 * t * ln (1 + exp 1 * Rabs (u i) * t * (t + 1) * (cc_beta cfg * (xmax * xmax)) / (cc_alpha cfg * xi))))) idx.
Proof.
  intros H dbg cfg gc nma n c0 idx xi xmax lo hi wmax h u E Hn Hb A B X Hlo Hhi Hr Ni Bi T.
  destruct (coin_new_wf _ _ _ _ _ _ E Hn) as (W & Bb & L & U & C & Ls & Z0).
  rewrite Hb in Bb. inversion Bb; subst n; clear Bb.
  pose proof (cinv_init RF_ford _ _ _ _ _ _ E Hn) as I0.
  assert (R0 : rinv dbg c0 lo hi xi xmax [] c0).
  { constructor; auto.
    - now rewrite L.
    - pose proof (ci_range _ _ _ _ I0) as Q. cbn [f_leb RF] in Q. now destruct (Rleb_spec (co_min c0) (co_max c0)).
    - now rewrite U.
    - unfold coin_new in E. apply bind_ok in E. destruct E as (pt & _ & E). destruct (cc_loss cfg);
      apply bind_ok in E; destruct E as (fs & _ & E); apply bind_ok in E; destruct E as (w & _ & E); inversion E; cbn [co_states];
      (destruct (N.to_nat nma) eqn:Q; [exfalso; lia|]); cbn [repeat]; (eexists _, _; split; [reflexivity|]); split; apply Req_le; symmetry; exact RF_f0.
    - intros i Hi. destruct (fresh_state _ _ _ _ _ _ _ E Hn Hi) as (Ln & F). rewrite C.
      constructor; [now apply grown_0| | |]; unfold W_MG, W_MX, W_G2; rewrite !F by lia; auto; cbn [length INR]; lra. }
  rewrite <- C in A, B, Hr. destruct (regret_run dbg c0 lo hi xi xmax wmax idx u A B X Hr Ni Bi h [] c0 R0 T) as (r & c & Er & Ic & Lr).
  rewrite C in A, B. exists r. split; auto. intros t. eapply Rle_trans; [exact Lr|].
  assert (Q0 : sum_of (fun i => value u i (read (co_w c0) i 0)) idx = 0).
  { transitivity (sum_of (fun _ => 0) idx).
    - apply sum_ext. intros i Hi. rewrite Forall_forall in Bi. destruct (fresh_state _ _ _ _ _ _ _ E Hn (Bi i Hi)) as (Ln & F).
      unfold value, W_ZT, W_WE. rewrite !F by lia. ring.
    - clear. induction idx; cbn [sum_of fold_right]; auto. unfold sum_of in IHidx. rewrite IHidx. ring. }
  rewrite Q0, Rminus_0_r. apply sum_le. intros i Hi. rewrite Forall_forall in Bi.
  assert (Hc : (i < dw_fsize (co_w c))%N) by (replace (dw_fsize (co_w c)) with (dw_fsize (co_w c0)); [now apply Bi|symmetry; apply Ic]).
  pose proof (ri_k _ _ _ _ _ _ _ _ Ic i Hc) as K. rewrite C in K. cbn [app] in K. pose proof (ke_gr _ _ _ _ _ K) as G.
  unfold value. eapply Rle_trans; [apply (grown_regret cfg xi); auto; lra|].
  pose proof (pos_INR (length h)) as Pt. rewrite <- regret_formula by (auto; lra).
  pose proof (gr_so _ _ _ G) as So. apply regret_mono; auto.
  - apply Rmult_lt_0_compat; lra.
  - split; [apply Rmult_le_pos; apply So|]. apply Rmult_le_compat; try apply So; [|apply K].
    destruct (ke_mg _ _ _ _ _ K) as [-> | ->]; lra.
  - split; [|apply K]. eapply Rle_trans; [apply Rabs_pos|apply So].
Qed.
