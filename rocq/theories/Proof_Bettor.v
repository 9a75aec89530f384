(** The wealth of the coin regressor in exact arithmetic (C66). *)
From Coq Require Import List NArith ZArith Bool Lia Reals Lra.
From Verif Require Import Base FloatOps FloatR Model_Hash Model_Features Model_Weights Model_Loss
  Model_Interactions Model_Types Model_Coin Proof_Hash Proof_Weights Spec_Weights Proof_WeightsProps
  Proof_Foreach Proof_FloatOrder Spec_Coin Spec_Regret Proof_Coin Proof_CoinR Proof_Betting.
Import ListNotations.
Open Scope R_scope.

Definition fld (st : list RF) (i : nat) : R := sg st i.
Definition bet (alpha s z g2 we : R) : R := if Rltb 0 s then (alpha + we) / (s * (s + g2)) * z else 0.

Lemma RF_gtb : forall a b : RF, @f_gtb RF a b = Rltb b a.
Proof. reflexivity. Qed.

Lemma iu_real : forall (cfg : coin_config RF) (avg u x : RF) st, length st = 6%nat ->
  let st' := iu cfg avg u x st in
  let b := bet (cc_alpha cfg) (fld st' W_MG * fld st' W_MX) (fld st W_ZT) (fld st W_G2) (fld st W_WE) in
  length st' = 6%nat /\ fld st' W_MX = Rmax (fld st W_MX) (Rabs x) /\
  (Rabs u <= fld st W_MG /\ fld st' W_MG = fld st W_MG \/
   fld st W_MG < Rabs u /\ fld st' W_MG = Rmax (Rabs u) (cc_beta cfg)) /\
  fld st' W_ZT = fld st W_ZT - u * x /\ fld st' W_G2 = fld st W_G2 + Rabs (u * x) /\
  fld st' W_WE = fld st W_WE - u * x * b /\ fld st' W_XT = b / avg.
Proof.
  intros cfg avg u x st L st' b.
  assert (E : st' = [ (b / avg)%R; (fld st W_ZT + - (u * x))%R; (fld st W_G2 + Rabs (u * x))%R;
     (if Rltb (fld st W_MX) (Rabs x) then Rabs x else fld st W_MX)%R; (fld st W_WE + - (u * x) * b)%R;
     (if Rltb (fld st W_MG) (Rabs u) then (if Rltb (cc_beta cfg) (Rabs u) then Rabs u else cc_beta cfg) else fld st W_MG)%R]).
  { unfold b, st', bet, iu, inner_update, fld. rewrite L. cbn [Nat.eqb]. rewrite !RF_gtb, RF_f0. reflexivity. }
  split; [apply iu_ok; auto|].
  assert (M : forall a c, (if Rltb a c then c else a) = Rmax a c).
  { intros a c. unfold Rmax. destruct (Rltb_spec a c), (Rle_dec a c); lra. }
  assert (M' : forall a c, (if Rltb a c then c else a) = Rmax c a).
  { intros a c. rewrite M. apply Rmax_comm. }
  clearbody b st'. rewrite M, M' in E. repeat split; try (rewrite E; unfold fld; cbn [sg nth W_XT W_ZT W_G2 W_MX W_WE W_MG]; fold (fld st W_ZT) (fld st W_WE); ring); try (rewrite E; reflexivity).
  assert (G : fld st' W_MG = (if Rltb (fld st W_MG) (Rabs u) then Rmax (Rabs u) (cc_beta cfg) else fld st W_MG)) by (rewrite E; reflexivity).
  rewrite G. destruct (Rltb_spec (fld st W_MG) (Rabs u)); [right|left]; split; auto; lra.
Qed.

(** *** solvency *)
Record solvent (cfg : coin_config RF) (st : list RF) : Prop := mkSolvent {
  so_len : length st = 6%nat;
  so_z : Rabs (fld st W_ZT) <= fld st W_G2;
  so_mg : 0 <= fld st W_MG;
  so_mx : 0 <= fld st W_MX;
  so_we : 0 < cc_alpha cfg + fld st W_WE
}.
Lemma scale_covers : forall u x mg mg' mx mx' beta, 0 <= mg -> mx' = Rmax mx (Rabs x) ->
  (Rabs u <= mg /\ mg' = mg \/ mg < Rabs u /\ mg' = Rmax (Rabs u) beta) -> Rabs (u * x) <= mg' * mx'.
Proof.
  intros u x mg mg' mx mx' beta M X G. rewrite Rabs_mult. apply Rmult_le_compat; try apply Rabs_pos.
  - destruct G as [(G & ->)|(G & ->)]; auto. apply Rmax_l.
  - subst. apply Rmax_r.
Qed.
Lemma wealth_step : forall alpha s z g2 we g, 0 < s ->
  alpha + (we - g * bet alpha s z g2 we) = (alpha + we) * (1 - g * z / (s * (s + g2))).
Proof. intros. unfold bet. destruct (Rltb_spec 0 s); [|lra]. unfold Rdiv. ring. Qed.
Lemma solvent_step : forall (cfg : coin_config RF) (avg u x : RF) st, solvent cfg st -> solvent cfg (iu cfg avg u x st).
Proof.
  intros cfg avg u x st [L Z Mg Mx We]. destruct (iu_real cfg avg u x st L) as (L' & X & G & Ez & Eg & Ew & _).
  set (st' := iu cfg avg u x st) in *.
  assert (Mx' : 0 <= fld st' W_MX) by (rewrite X; eapply Rle_trans; [exact Mx|apply Rmax_l]).
  assert (Mg' : 0 <= fld st' W_MG).
  { destruct G as [(G & ->)|(G & ->)]; auto. eapply Rle_trans; [apply (Rabs_pos u)|apply Rmax_l]. }
  constructor; auto.
  - rewrite Ez, Eg. replace (fld st W_ZT - u * x) with (fld st W_ZT + - (u * x)) by ring.
    eapply Rle_trans; [apply Rabs_triang|]. rewrite Rabs_Ropp. lra.
  - rewrite Ew. pose proof (scale_covers u x _ _ _ _ _ Mg X G) as C.
    assert (P : 0 <= fld st' W_MG * fld st' W_MX) by (apply Rmult_le_pos; auto). destruct P as [P|P].
    + rewrite wealth_step by auto. apply Rmult_lt_0_compat; auto. now apply pot_factor.
    + rewrite <- P. unfold bet. destruct (Rltb_spec 0 0); lra.
Qed.

(** *** growth *)
Record grown (cfg : coin_config RF) (xi : R) (st : list RF) : Prop := mkGrown {
  gr_so : solvent cfg st;
  gr_mg : fld st W_MG = 0 \/ cc_beta cfg <= fld st W_MG;
  gr_mx : fld st W_MX = 0 \/ xi <= fld st W_MX;
  gr_0 : fld st W_MG * fld st W_MX = 0 -> fld st W_ZT = 0 /\ fld st W_G2 = 0 /\ fld st W_WE = 0;
  gr_1 : 0 < fld st W_MG * fld st W_MX ->
    ln (cc_alpha cfg) + pot (fld st W_MG * fld st W_MX) (fld st W_ZT) (fld st W_G2)
      - ln (fld st W_MG * fld st W_MX / (cc_beta cfg * xi)) <= ln (cc_alpha cfg + fld st W_WE)
}.
Lemma ln_le : forall a b, 0 < a <= b -> ln a <= ln b.
Proof. intros a b (A & [B|B]); [apply Rlt_le, ln_increasing; auto|rewrite B; lra]. Qed.
Lemma grown_step : forall (cfg : coin_config RF) xi (avg u x : RF) st, 0 < (cc_alpha cfg : R) -> 0 < (cc_beta cfg : R) -> 0 < xi ->
  ((x : R) = 0 \/ xi <= Rabs x) -> grown cfg xi st -> grown cfg xi (iu cfg avg u x st).
Proof.
  intros cfg xi avg u x st Al Be Xi Hx [So Gg Gx G0 G1]. pose proof (solvent_step cfg avg u x st So) as So'.
  destruct So as [L Z Mg Mx We]. destruct (iu_real cfg avg u x st L) as (L' & X & G & Ez & Eg & Ew & _).
  set (st' := iu cfg avg u x st) in *. pose proof So' as [_ Z' Mg' Mx' We'].
  pose proof (scale_covers u x _ _ _ _ _ Mg X G) as C.
  set (s := fld st W_MG * fld st W_MX) in *. set (s' := fld st' W_MG * fld st' W_MX) in *.
  assert (Ix : fld st W_MX <= fld st' W_MX) by (rewrite X; apply Rmax_l).
  assert (Ig : fld st W_MG <= fld st' W_MG).
  { destruct G as [(G & ->)|(G & ->)]; [lra|]. eapply Rle_trans; [apply Rlt_le, G|apply Rmax_l]. }
  assert (Is : 0 <= s <= s') by (unfold s, s'; split; [nra|apply Rmult_le_compat; auto]).
  assert (Gg' : fld st' W_MG = 0 \/ cc_beta cfg <= fld st' W_MG).
  { destruct G as [(G & ->)|(G & ->)]; auto. right. apply Rmax_r. }
  assert (Gx' : fld st' W_MX = 0 \/ xi <= fld st' W_MX).
  { rewrite X. destruct Hx as [-> |Hx]; [|right; eapply Rle_trans; [exact Hx|apply Rmax_r]].
    rewrite Rabs_R0, Rmax_left by auto. auto. }
  constructor; auto; fold s'.
  - intros E. assert (E0 : s = 0) by lra. destruct (G0 E0) as (Q1 & Q2 & Q3). 
    assert (E1 : Rabs (u * x) = 0) by (pose proof (Rabs_pos (u * x)); lra).
    assert (E2 : u * x = 0) by (destruct (Req_dec (u * x) 0); auto; now apply Rabs_no_R0 in E1).
    rewrite Ez, Eg, Ew, E1, E2, Q1, Q2, Q3. repeat split; ring.
  - intros P. rewrite Ez, Eg, Ew. fold s'. rewrite wealth_step by auto.
    pose proof (pot_factor s' _ _ _ P Z C) as Pf. rewrite ln_mult by auto.
    pose proof (pot_step s' _ _ _ P Z C) as Ps.
    assert (Lb : cc_beta cfg * xi <= s').
    { destruct Gg' as [Q|Q]; [exfalso; unfold s' in P; rewrite Q in P; lra|].
      destruct Gx' as [Q'|Q']; [exfalso; unfold s' in P; rewrite Q' in P; lra|]. apply Rmult_le_compat; lra. }
    assert (Pl : 0 < cc_beta cfg * xi) by (apply Rmult_lt_0_compat; auto).
    assert (Q : ln (cc_alpha cfg) + pot s' (fld st W_ZT) (fld st W_G2) - ln (s' / (cc_beta cfg * xi)) <= ln (cc_alpha cfg + fld st W_WE)).
    { destruct (Req_dec s 0) as [E|E].
      - destruct (G0 E) as (-> & -> & ->). rewrite pot_0, !Rplus_0_r by auto.
        assert (0 <= ln (s' / (cc_beta cfg * xi))); [|lra]. rewrite <- ln_1. apply ln_le. split; [lra|].
        apply Rmult_le_reg_r with (cc_beta cfg * xi); auto. unfold Rdiv. rewrite Rmult_assoc, Rinv_l by lra. lra.
      - pose proof (G1 ltac:(lra)) as Q. pose proof (pot_scale s s' _ _ ltac:(lra) Z) as Q'.
        assert (ln (s' / (cc_beta cfg * xi)) = ln (s' / s) + ln (s / (cc_beta cfg * xi))); [|lra].
        rewrite <- ln_mult; [|apply Rdiv_lt_0_compat; lra|apply Rdiv_lt_0_compat; lra]. f_equal. field. split; [lra|split; lra]. }
    lra.
Qed.

(** *** along a training run *)
Lemma fold_keeps : forall (Q : list RF -> Prop) (V : RF -> Prop) cfg (avg u : RF),
  (forall x st, V x -> Q st -> Q (iu cfg avg u x st)) -> forall i l st, (forall v, In (i, v) l -> V v) -> Q st ->
  Q (fold_left (fun st (iv : N * RF) => if N.eqb (fst iv) i then iu cfg avg u (snd iv) st else st) l st).
Proof.
  intros Q V cfg avg u K i l. induction l as [|[j v] l IH]; intros st B Z; cbn [fold_left fst snd]; auto.
  destruct (N.eqb j i) eqn:E; [|apply IH; auto; intros w Hw; apply B; now right].
  apply N.eqb_eq in E. subst. apply IH; [intros w Hw; apply B; now right|]. apply K; auto. apply B. now left.
Qed.
Lemma train_keeps : forall (Q : list RF -> Prop) (V : RF -> Prop) dbg (c0 : coin RF),
  (forall avg u x st, V x -> Q st -> Q (iu (co_cfg c0) avg u x st)) ->
  forall k h c, cinv dbg c0 h c -> Forall (fun e => below (dw_fsize (co_w c0)) (ex_f e)) k ->
  Forall (fun e => forall l i v, coin_feats dbg c0 (ex_f e) = Ok l -> In (i, v) l -> V v) k ->
  (forall i, (i < dw_fsize (co_w c))%N -> Q (read (co_w c) i 0)) ->
  exists c', train dbg k c = Ok c' /\ cinv dbg c0 (h ++ k) c' /\
    (forall i, (i < dw_fsize (co_w c'))%N -> Q (read (co_w c') i 0)).
Proof.
  intros Q V dbg c0 K k. induction k as [|e k IH]; intros h c I B Fv Z.
  - exists c. rewrite app_nil_r. split; [reflexivity|]. auto.
  - inversion B as [|? ? B1 B2]; subst. inversion Fv as [|? ? V1 V2]; subst.
    destruct (cinv_step RF_ford dbg c0 h c e I B1) as (c1 & E1 & I1).
    pose proof I as [W Sh R Mi Ma Cf Lo Fe].
    assert (Fs : dw_fsize (co_w c) = dw_fsize (co_w c0)) by apply Sh.
    assert (B' : below (dw_fsize (co_w c)) (ex_f e)) by now rewrite Fs.
    destruct (learn_ok dbg c (ex_f e) (ex_y e) (ex_w e) W B' (range_step RF_ford _ _ R))
      as (c' & l & p & cb & u & E' & W' & El & Ep & Eu & M1 & M2 & C1 & C2 & C3 & C4 & C5 & C6 & S' & Rd).
    rewrite E1 in E'. inversion E'; subst c'; clear E'.
    destruct (IH (h ++ [e]) c1 I1 B2 V2) as (c2 & E2 & I2 & Z2).
    { intros i Hi. assert (Hi' : (i < dw_fsize (co_w c))%N) by (destruct S' as (S' & _); now rewrite S' in Hi).
      rewrite Rd by auto. rewrite Fe in El. apply (fold_keeps Q V); auto.
      - intros x st Vx Qs. rewrite Cf. now apply K.
      - intros v Hv. now apply (V1 l i v). }
    exists c2. rewrite <- app_assoc in I2. split; [unfold train; cbn [foldm]; rewrite E1; exact E2|]. auto.
Qed.
Lemma fresh_state : forall H dbg (cfg : coin_config RF) gc nma (c0 : coin RF) i, coin_new H dbg cfg gc nma = Ok c0 -> (0 < nma < 2 ^ 8)%N ->
  (i < dw_fsize (co_w c0))%N -> length (read (co_w c0) i 0) = 6%nat /\ forall k, (k < 6)%nat -> fld (read (co_w c0) i 0) k = 0.
Proof.
  intros H dbg cfg gc nma c0 i E Hn Hi. destruct (coin_new_wf _ _ _ _ _ _ E Hn) as (W & B & _ & _ & C & _ & Z0).
  rewrite (read_zeros _ _ _ (cw_wf _ _ W) Hi (cw_ms _ _ W) Z0), (cw_ss _ _ W). split; [reflexivity|].
  intros k Hk. unfold fld. change (N.to_nat 6) with 6%nat.
  do 6 (destruct k as [|k]; [exact RF_f0|]). exfalso; lia.
Qed.
Lemma keeps_main : forall (Q : list RF -> Prop) (V : RF -> Prop) H dbg (cfg : coin_config RF) gc nma n (c0 : coin RF) h,
  coin_new H dbg cfg gc nma = Ok c0 -> (0 < nma < 2 ^ 8)%N -> bits_to_max_feature_index dbg (gc_bits gc) = Ok n ->
  Forall (fun e => below n (ex_f e)) h ->
  (forall avg u x st, V x -> Q st -> Q (iu cfg avg u x st)) ->
  (forall st, length st = 6%nat -> (forall k, (k < 6)%nat -> fld st k = 0) -> Q st) ->
  Forall (fun e => forall l i v, coin_feats dbg c0 (ex_f e) = Ok l -> In (i, v) l -> V v) h ->
  exists c, train dbg h c0 = Ok c /\ forall i, (i < n)%N -> exists st, stored dbg c i = Ok st /\ Q st.
Proof.
  intros Q V H dbg cfg gc nma n c0 h E Hn Hb Bh K Q0 Fv.
  destruct (coin_new_wf _ _ _ _ _ _ E Hn) as (W & B & _ & _ & C & _ & Z0).
  rewrite Hb in B. inversion B; subst n; clear B.
  pose proof (cinv_init RF_ford _ _ _ _ _ _ E Hn) as I0.
  destruct (train_keeps Q V dbg c0) with (k := h) (h := @nil (example RF)) (c := c0) as (c & Et & I & Z); auto.
  { now rewrite C. }
  { intros i Hi. destruct (fresh_state _ _ _ _ _ _ _ E Hn Hi) as (L & F). auto. }
  exists c. split; auto. intros i Hi.
  assert (Hc : (i < dw_fsize (co_w c))%N) by (replace (dw_fsize (co_w c)) with (dw_fsize (co_w c0)); auto; symmetry; apply I).
  exists (read (co_w c) i 0). split; [apply (proj1 (read6 dbg c i (ci_wf _ _ _ _ I) Hc))|]. auto.
Qed.
Lemma solvent_0 : forall (cfg : coin_config RF) st, 0 < (cc_alpha cfg : R) -> length st = 6%nat -> (forall k, (k < 6)%nat -> fld st k = 0) -> solvent cfg st.
Proof.
  intros cfg st A L F. unfold W_ZT, W_G2, W_MX, W_WE, W_MG in *.
  constructor; auto; unfold W_ZT, W_G2, W_MX, W_WE, W_MG; rewrite !F by lia; try rewrite Rabs_R0; lra.
Qed.
Lemma grown_0 : forall (cfg : coin_config RF) xi st, 0 < (cc_alpha cfg : R) -> length st = 6%nat -> (forall k, (k < 6)%nat -> fld st k = 0) -> grown cfg xi st.
Proof.
  intros cfg xi st A L F. constructor; [now apply solvent_0| | | |]; unfold W_ZT, W_G2, W_MX, W_WE, W_MG; rewrite !F by lia; auto.
  lra.
Qed.
Lemma solvent_main : forall H dbg (cfg : coin_config RF) gc nma n (c0 : coin RF) h,
  coin_new H dbg cfg gc nma = Ok c0 -> (0 < nma < 2 ^ 8)%N ->
  bits_to_max_feature_index dbg (gc_bits gc) = Ok n -> Forall (fun e => below n (ex_f e)) h -> 0 < (cc_alpha cfg : R) ->
  exists c, train dbg h c0 = Ok c /\
    forall i, (i < n)%N -> exists st, stored dbg c i = Ok st /\ 0 < (cc_alpha cfg : R) + (sg st W_WE : R).
Proof.
  intros H dbg cfg gc nma n c0 h E Hn Hb Bh A.
  destruct (keeps_main (solvent cfg) (fun _ => True) H dbg cfg gc nma n c0 h) as (c & Et & K); auto.
  - intros. now apply solvent_step.
  - intros. now apply solvent_0.
  - apply Forall_forall. auto.
  - exists c. split; auto. intros i Hi. destruct (K i Hi) as (st & Es & So). exists st. split; auto. apply So.
Qed.
Lemma grown_main : forall H dbg (cfg : coin_config RF) gc nma n (c0 : coin RF) h xi,
  coin_new H dbg cfg gc nma = Ok c0 -> (0 < nma < 2 ^ 8)%N ->
  bits_to_max_feature_index dbg (gc_bits gc) = Ok n -> Forall (fun e => below n (ex_f e)) h ->
  0 < (cc_alpha cfg : R) -> 0 < (cc_beta cfg : R) -> 0 < xi -> Forall (resolved dbg c0 xi) h ->
  exists c, train dbg h c0 = Ok c /\ forall i, (i < n)%N -> exists st, stored dbg c i = Ok st /\ grown cfg xi st.
Proof.
  intros H dbg cfg gc nma n c0 h xi E Hn Hb Bh A B X Rs.
  destruct (keeps_main (grown cfg xi) (fun v => (v : R) = 0 \/ xi <= Rabs v) H dbg cfg gc nma n c0 h) as (c & Et & K); auto.
  - intros. now apply grown_step.
  - intros. now apply grown_0.
  - exists c. auto.
Qed.
Lemma grown_scale : forall (cfg : coin_config RF) xi st, 0 < (cc_beta cfg : R) -> 0 < xi -> grown cfg xi st -> 0 < fld st W_MG * fld st W_MX ->
  cc_beta cfg * xi <= fld st W_MG * fld st W_MX.
Proof.
  intros cfg xi st B X [So G M _ _] P. destruct G as [G|G]; [rewrite G in P; lra|]. destruct M as [M|M]; [rewrite M in P; lra|].
  apply Rmult_le_compat; lra.
Qed.
Lemma growth_main : forall H dbg (cfg : coin_config RF) gc nma n (c0 : coin RF) h xi,
  coin_new H dbg cfg gc nma = Ok c0 -> (0 < nma < 2 ^ 8)%N ->
  bits_to_max_feature_index dbg (gc_bits gc) = Ok n -> Forall (fun e => below n (ex_f e)) h ->
  0 < (cc_alpha cfg : R) -> 0 < (cc_beta cfg : R) -> 0 < xi -> Forall (resolved dbg c0 xi) h ->
  exists c, train dbg h c0 = Ok c /\
    forall i, (i < n)%N -> exists st, stored dbg c i = Ok st /\
      let s := (sg st W_MG : R) * (sg st W_MX : R) in let z := (sg st W_ZT : R) in let g := (sg st W_G2 : R) in
      (s = 0 -> z = 0 /\ g = 0 /\ (sg st W_WE : R) = 0) /\
      (s <> 0 -> (cc_alpha cfg : R) * ((cc_beta cfg : R) * xi) / (exp 1 * (s + g)) * exp (z * z / (2 * s * g))
                 <= (cc_alpha cfg : R) + (sg st W_WE : R)).
Proof.
  intros H dbg cfg gc nma n c0 h xi E Hn Hb Bh A B X Rs.
  destruct (grown_main H dbg cfg gc nma n c0 h xi) as (c & Et & K); auto. exists c. split; auto.
  intros i Hi. destruct (K i Hi) as (st & Es & G). exists st. split; auto. intros s z g. split.
  - apply G.
  - intros N. pose proof (gr_so _ _ _ G) as So. assert (P : 0 < s) by (pose proof (so_mg _ _ So); pose proof (so_mx _ _ So); unfold fld in *; unfold s in *; nra).
    pose proof (grown_scale cfg xi st B X G P). apply wealth_lower; auto.
    + split; auto. apply Rmult_lt_0_compat; auto.
    + apply So.
    + apply So.
    + now apply (gr_1 _ _ _ G).
Qed.
Lemma regret_nonneg : forall alpha l s g u, 0 < alpha -> 0 <= regret alpha l s g u.
Proof. intros. unfold regret. pose proof (Rabs_pos u). pose proof (sqrt_pos (2 * s * g * ln (1 + exp 1 * Rabs u * g * (s + g) / (alpha * l)))). nra. Qed.
Lemma grown_regret : forall (cfg : coin_config RF) xi st u, 0 < (cc_alpha cfg : R) -> 0 < (cc_beta cfg : R) -> 0 < xi -> grown cfg xi st ->
  u * fld st W_ZT - fld st W_WE <= regret (cc_alpha cfg) (cc_beta cfg * xi) (fld st W_MG * fld st W_MX) (fld st W_G2) u.
Proof.
  intros cfg xi st u A B X G. pose proof (gr_so _ _ _ G) as So.
  assert (P : 0 <= fld st W_MG * fld st W_MX) by (apply Rmult_le_pos; apply So).
  destruct P as [P|P].
  - pose proof (grown_scale cfg xi st B X G P) as Q.
    pose proof (regret_bound (cc_alpha cfg) (cc_beta cfg * xi) (fld st W_MG * fld st W_MX) (fld st W_ZT) (fld st W_G2) (cc_alpha cfg + fld st W_WE) u A) as K.
    enough (cc_alpha cfg - (cc_alpha cfg + fld st W_WE) + u * fld st W_ZT <= regret (cc_alpha cfg) (cc_beta cfg * xi) (fld st W_MG * fld st W_MX) (fld st W_G2) u) by lra.
    apply K; [split; auto; apply Rmult_lt_0_compat; auto|apply So|apply So|now apply (gr_1 _ _ _ G)].
  - destruct (gr_0 _ _ _ G (eq_sym P)) as (-> & _ & ->). rewrite Rmult_0_r, Rminus_0_r. now apply regret_nonneg.
Qed.
Lemma coordinate_main : forall H dbg (cfg : coin_config RF) gc nma n (c0 : coin RF) h xi,
  coin_new H dbg cfg gc nma = Ok c0 -> (0 < nma < 2 ^ 8)%N ->
  bits_to_max_feature_index dbg (gc_bits gc) = Ok n -> Forall (fun e => below n (ex_f e)) h ->
  0 < (cc_alpha cfg : R) -> 0 < (cc_beta cfg : R) -> 0 < xi -> Forall (resolved dbg c0 xi) h ->
  exists c, train dbg h c0 = Ok c /\
    forall i u, (i < n)%N -> exists st, stored dbg c i = Ok st /\
      let s := (sg st W_MG : R) * (sg st W_MX : R) in let g := (sg st W_G2 : R) in
      u * (sg st W_ZT : R) - (sg st W_WE : R) <=
        (cc_alpha cfg : R) + Rabs u * sqrt (2 * s * g * ln (1 + exp 1 * Rabs u * g * (s + g) / ((cc_alpha cfg : R) * ((cc_beta cfg : R) * xi)))).
Proof.
  intros H dbg cfg gc nma n c0 h xi E Hn Hb Bh A B X Rs.
  destruct (grown_main H dbg cfg gc nma n c0 h xi) as (c & Et & K); auto. exists c. split; auto.
  intros i u Hi. destruct (K i Hi) as (st & Es & G). exists st. split; auto. intros s g.
  exact (grown_regret cfg xi st u A B X G).
Qed.
