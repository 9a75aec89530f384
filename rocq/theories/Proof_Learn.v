(** C84: signs of weights. *)
From Coq Require Import List NArith ZArith Bool Lia Reals Lra Permutation.
From Verif Require Import Base FloatOps FloatR Model_Hash Model_Features Model_Weights Model_Loss
  Model_Interactions Model_Types Model_Coin Proof_Hash Proof_Weights Spec_Weights Proof_WeightsProps
  Proof_Foreach Proof_FloatOrder Spec_Coin Spec_Learn Proof_StackProps Spec_Regret Proof_Coin Proof_CoinR Proof_Betting Proof_Bettor Proof_Regret.
Import ListNotations.
Open Scope R_scope.

Record linv (dbg : bool) (c0 : coin RF) (lo hi : R) (h : list (example RF)) (c : coin RF) : Prop := mkLinv {
  li_c : cinv dbg c0 h c;
  li_lo : lo <= co_min c;
  li_z : (co_min c : R) <= 0 <= co_max c;
  li_hi : co_max c <= hi;
  li_loss : co_loss c = LossSquared;
  li_st : exists ms ss, co_states c = ms :: ss /\ 0 <= (fst ms : R) /\ 0 <= (snd ms : R);
  li_k : forall i, (i < dw_fsize (co_w c))%N -> solvent (co_cfg c0) (read (co_w c) i 0)
}.

Lemma learn_step : forall dbg (c0 : coin RF) lo hi h c e, linv dbg c0 lo hi h c -> fine (dw_fsize (co_w c0)) lo hi e ->
  exists l (p avg u : R) c', coin_feats dbg c0 (ex_f e) = Ok l /\ coin_learn dbg c (ex_f e) (ex_y e) (ex_w e) = Ok c' /\
    linv dbg c0 lo hi (h ++ [e]) c' /\ 0 < avg /\ lo <= p <= hi /\ u = 2 * (p - ex_y e) * ex_w e /\
    (forall i v, In (i, v) l -> (i < dw_fsize (co_w c0))%N) /\
    ((forall i, (i < dw_fsize (co_w c))%N -> fld (read (co_w c) i 0) W_ZT = 0) -> p = 0) /\
    forall i, (i < dw_fsize (co_w c))%N -> read (co_w c') i 0 =
      fold_left (fun st iv => if (fst iv =? i)%N then iu (co_cfg c0) avg u (snd iv) st else st) l (read (co_w c) i 0).
Proof.
  intros dbg c0 lo hi h c e [I Rl Rz Rh Lo St K] (Bf & Y & Wt).
  destruct (cinv_step RF_ford dbg c0 h c e I Bf) as (c1 & E1 & I1).
  pose proof I as [W Sh Rg Mi Ma Cf Lo' Fe].
  assert (Fs : dw_fsize (co_w c) = dw_fsize (co_w c0)) by apply Sh.
  assert (B' : below (dw_fsize (co_w c)) (ex_f e)) by now rewrite Fs.
  destruct (learn_ok dbg c (ex_f e) (ex_y e) (ex_w e) W B' (range_step RF_ford _ _ Rg))
    as (c' & l & p & cb & up & E' & W' & El & Ep & Eu & M1 & M2 & C1 & C2 & C3 & C4 & C5 & C6 & S' & Rd).
  rewrite E1 in E'. inversion E'; subst c'; clear E'.
  assert (Bl : forall i v, In (i, v) l -> (i < dw_fsize (co_w c))%N).
  { destruct (feats_ok dbg c (ex_f e) W B') as (l' & Q & Bl). rewrite El in Q. inversion Q. subst. exact Bl. }
  set (mn := Rmin (ex_y e) (co_min c)). set (mx := Rmax (ex_y e) (co_max c)).
  assert (Hmn : lo <= mn <= ex_y e) by (unfold mn; split; [apply Rmin_glb; lra|apply Rmin_l]).
  assert (Hmx : ex_y e <= mx <= hi) by (unfold mx; split; [apply Rmax_l|apply Rmax_lub; lra]).
  assert (Hmn0 : mn <= 0) by (eapply Rle_trans; [apply Rmin_r|lra]).
  assert (Hmx0 : 0 <= mx) by (eapply Rle_trans; [|apply Rmax_r]; lra).
  pose proof Ep as Ep'. unfold coin_betting_predict in Ep.
  assert (Wr : cwf dbg (coin_range c (ex_y e))) by (destruct W; constructor; auto).
  destruct (predict_fold dbg (coin_range c (ex_y e)) l 0 0 Wr) as (nx & En & Hnx); [exact Bl|].
  change (coin_feats dbg (coin_range c (ex_y e)) (ex_f e)) with (coin_feats dbg c (ex_f e)) in Ep. rewrite El in Ep. cbn [bind] in Ep.
  rewrite RF_f0 in Ep. rewrite En in Ep. cbn [bind] in Ep.
  destruct St as (ms & ss & Es & Sn & Sw).
  change (co_states (coin_range c (ex_y e))) with (co_states c) in Ep. rewrite Es in Ep. cbn [nth_error opt_or bind fst snd upd] in Ep.
  change (co_min (coin_range c (ex_y e))) with (@f_min RF (ex_y e) (co_min c)) in Ep.
  change (co_max (coin_range c (ex_y e))) with (@f_max RF (ex_y e) (co_max c)) in Ep.
  rewrite RF_min, RF_max in Ep. fold mn mx in Ep.
  change (co_cfg (coin_range c (ex_y e))) with (co_cfg c) in *. change (co_w (coin_range c (ex_y e))) with (co_w c) in *.
  set (q0 := 0 + lsum (fun iv => bet_of (co_cfg c) (snd iv) (read (co_w c) (fst iv) 0) * snd iv) l) in Ep.
  cbn [f_add f_mul f_div f_lit RF] in Ep.
  set (avg := ((fst ms + nx * ex_w e + 1 / 1000000) / (snd ms + ex_w e))) in Ep.
  assert (Pa : 0 < avg).
  { unfold avg. apply Rdiv_lt_0_compat; [|lra]. assert (0 <= nx * ex_w e) by (apply Rmult_le_pos; lra). lra. }
  destruct (clamp_real (q0 / avg) mn mx) as (q & Eq & Hq & Hc); [lra|].
  apply bind_ok in Ep. destruct Ep as (p' & Epc & Ep). change (@f_clamp RF (q0 / avg) mn mx = Ok p') in Epc.
  rewrite Eq in Epc. inversion Epc; subst p'; clear Epc. inversion Ep as [[Ep1 Ep2]]. clear Ep.
  assert (Ec : co_avg cb = avg) by (rewrite <- Ep2; reflexivity).
  assert (Eu' : (up : R) = 2 * (p - ex_y e) * ex_w e).
  { rewrite Eu, Lo. cbn [loss_d1]. unfold sq_d1. rewrite RF_min, RF_max. fold mn mx. rewrite RF_gtb. cbn [f_ltb f_mul f_sub RF]. rewrite <- Ep1.
    destruct (Rltb_spec q mn); [lra|]. destruct (Rltb_spec mx q); [lra|]. rewrite RF_fl. ring. }
  rewrite Ep1 in *.
  exists l, p, avg, up, c1. split; [now rewrite <- Fe|]. split; [exact E1|]. split.
  { constructor; auto.
    - rewrite M1, RF_min. fold mn. lra.
    - rewrite M1, M2, RF_min, RF_max. fold mn mx. lra.
    - rewrite M2, RF_max. fold mx. lra.
    - congruence.
    - rewrite (learn_states _ _ _ _ _ _ _ E1 Ep'). cbn [snd]. rewrite <- Ep2. cbn [co_states]. do 2 eexists. split; [reflexivity|]. cbn [fst snd].
      assert (0 <= nx * ex_w e) by (apply Rmult_le_pos; lra). split; [change (0 <= fst ms + nx * ex_w e)|change (0 <= snd ms + ex_w e)]; lra.
    - intros i Hi. assert (Hi' : (i < dw_fsize (co_w c))%N) by (destruct S' as (S' & _); now rewrite S' in Hi).
      rewrite Rd by auto. apply (fold_keeps (solvent (co_cfg c0)) (fun _ => True)); auto.
      intros x st _ So. rewrite Cf. now apply solvent_step. }
  split; [exact Pa|]. split; [lra|]. split; [exact Eu'|]. split; [intros i v Hv; rewrite <- Fs; now apply (Bl i v)|]. split.
  - intros Z0. assert (Eq0 : q0 = 0).
    { unfold q0. rewrite Rplus_0_l. assert (G : forall k, (forall iv, In iv k -> (fst iv < dw_fsize (co_w c))%N) ->
        lsum (fun iv => bet_of (co_cfg c) (snd iv) (read (co_w c) (fst iv) 0) * snd iv) k = 0).
      { induction k as [|iv k IHk]; intros Hk; cbn [lsum fold_right]; auto. unfold lsum in IHk. rewrite IHk by (intros; apply Hk; now right).
        unfold bet_of, bet. rewrite Z0 by (apply Hk; now left). destruct (Rltb 0 _); ring. }
      apply G. intros [i v] Hv. cbn [fst]. now apply (Bl i v). }
    rewrite Eq0 in Eq. unfold Rdiv in Eq. rewrite Rmult_0_l in Eq. unfold f_clamp in Eq. cbn [f_leb f_ltb RF] in Eq.
    destruct (Rleb_spec mn mx); [|lra]. destruct (Rltb_spec 0 mn); [lra|]. destruct (Rltb_spec mx 0); [lra|]. inversion Eq. reflexivity.
  - intros i Hi. rewrite Rd by auto. rewrite Cf, Ec. reflexivity.
Qed.

(** *** one weight *)
Definition signed (s : R) (st : list RF) : Prop := 0 <= s * fld st W_ZT /\ 0 <= s * fld st W_XT.
Definition armed (s : R) (st : list RF) : Prop := 0 < s * fld st W_ZT /\ 0 < fld st W_MG /\ 0 < fld st W_MX.
Definition moved (s : R) (st : list RF) : Prop := armed s st /\ 0 < s * fld st W_XT.

Lemma signed_step : forall (cfg : coin_config RF) (avg u x : RF) s st, solvent cfg st -> 0 < (avg : R) -> s * u <= 0 -> 0 <= (x : R) ->
  signed s st -> signed s (iu cfg avg u x st).
Proof.
  intros cfg avg u x s st So Pa Su Px (Sz & Sx). destruct (iu_real cfg avg u x st (so_len _ _ So)) as (L' & X & G & Ez & Eg & Ew & Ex).
  destruct So as [L Z Mg Mx We]. set (st' := iu cfg avg u x st) in *. split.
  - rewrite Ez. assert (0 <= - (s * u) * x) by (apply Rmult_le_pos; lra). nra.
  - rewrite Ex. unfold bet. pose proof (Rabs_pos (fld st W_ZT)) as Pz. destruct (Rltb_spec 0 (fld st' W_MG * fld st' W_MX)) as [P|P].
    + set (q := fld st' W_MG * fld st' W_MX) in *. unfold Rdiv.
      replace (s * ((cc_alpha cfg + fld st W_WE) * / (q * (q + fld st W_G2)) * fld st W_ZT * / avg))
        with ((cc_alpha cfg + fld st W_WE) * / (q * (q + fld st W_G2)) * / avg * (s * fld st W_ZT)) by ring.
      apply Rmult_le_pos; auto. apply Rlt_le. apply Rmult_lt_0_compat; [|now apply Rinv_0_lt_compat].
      apply Rmult_lt_0_compat; auto. apply Rinv_0_lt_compat. apply Rmult_lt_0_compat; auto. lra.
    + unfold Rdiv. lra.
Qed.
Lemma scales_step : forall (cfg : coin_config RF) (avg u x : RF) st, solvent cfg st -> 
  fld st W_MG <= fld (iu cfg avg u x st) W_MG /\ fld st W_MX <= fld (iu cfg avg u x st) W_MX /\
  Rabs u <= fld (iu cfg avg u x st) W_MG /\ Rabs x <= fld (iu cfg avg u x st) W_MX.
Proof.
  intros cfg avg u x st So. destruct (iu_real cfg avg u x st (so_len _ _ So)) as (L' & X & G & _).
  rewrite X. pose proof (Rmax_l (fld st W_MX) (Rabs x)). pose proof (Rmax_r (fld st W_MX) (Rabs x)).
  pose proof (Rmax_l (Rabs u) (cc_beta cfg)). destruct G as [(G & ->)|(G & ->)]; repeat split; lra.
Qed.
Lemma armed_first : forall (cfg : coin_config RF) (avg u x : RF) s st, solvent cfg st -> s * u < 0 -> 0 < (x : R) ->
  signed s st -> armed s (iu cfg avg u x st).
Proof.
  intros cfg avg u x s st So Su Px (Sz & Sx). destruct (scales_step cfg avg u x st So) as (G1 & G2 & G3 & G4).
  destruct (iu_real cfg avg u x st (so_len _ _ So)) as (_ & _ & _ & Ez & _). split; [|split].
  - rewrite Ez. assert (0 < - (s * u) * x) by (apply Rmult_lt_0_compat; lra). nra.
  - assert (u <> 0) by (intros ->; lra). pose proof (Rabs_pos_lt u H). lra.
  - rewrite (Rabs_right x) in G4 by lra. lra.
Qed.
Lemma armed_step : forall (cfg : coin_config RF) (avg u x : RF) s st, solvent cfg st -> 0 < (avg : R) -> s * u <= 0 -> 0 <= (x : R) ->
  armed s st -> moved s (iu cfg avg u x st).
Proof.
  intros cfg avg u x s st So Pa Su Px (Sz & Sg & Sx). destruct (scales_step cfg avg u x st So) as (G1 & G2 & _).
  destruct (iu_real cfg avg u x st (so_len _ _ So)) as (_ & _ & _ & Ez & _ & _ & Ex). destruct So as [L Z Mg Mx We].
  set (st' := iu cfg avg u x st) in *. split; [split; [|split; lra]|].
  - rewrite Ez. assert (0 <= - (s * u) * x) by (apply Rmult_le_pos; lra). nra.
  - rewrite Ex. unfold bet. assert (P : 0 < fld st' W_MG * fld st' W_MX) by (apply Rmult_lt_0_compat; lra).
    destruct (Rltb_spec 0 (fld st' W_MG * fld st' W_MX)); [|lra]. pose proof (Rabs_pos (fld st W_ZT)) as Pz.
    set (q := fld st' W_MG * fld st' W_MX) in *. unfold Rdiv.
    replace (s * ((cc_alpha cfg + fld st W_WE) * / (q * (q + fld st W_G2)) * fld st W_ZT * / avg))
      with ((cc_alpha cfg + fld st W_WE) * / (q * (q + fld st W_G2)) * / avg * (s * fld st W_ZT)) by ring.
    apply Rmult_lt_0_compat; auto. apply Rmult_lt_0_compat; [|now apply Rinv_0_lt_compat].
    apply Rmult_lt_0_compat; auto. apply Rinv_0_lt_compat. apply Rmult_lt_0_compat; auto. lra.
Qed.

(** *** the updates of one example *)
Definition upds (cfg : coin_config RF) (avg u : RF) (i : N) (l : list (N * RF)) (st : list RF) : list RF :=
  fold_left (fun st (iv : N * RF) => if N.eqb (fst iv) i then iu cfg avg u (snd iv) st else st) l st.
Lemma upds_solvent : forall cfg avg u i l st, solvent cfg st -> solvent cfg (upds cfg avg u i l st).
Proof. intros. apply (fold_keeps (solvent cfg) (fun _ => True)); auto. intros. now apply solvent_step. Qed.
Lemma upds_signed : forall cfg avg u i l s st, 0 < avg -> s * u <= 0 -> (forall v, In (i, v) l -> 0 <= (v : R)) ->
  solvent cfg st -> signed s st -> signed s (upds cfg avg u i l st).
Proof.
  intros cfg avg u i l s st Pa Su Pv So Sg.
  apply (fold_keeps (fun st => solvent cfg st /\ signed s st) (fun v => 0 <= (v : R)) cfg avg u); auto.
  intros x st0 Px (A & B). split; [now apply solvent_step|now apply signed_step].
Qed.
Lemma upds_armed : forall cfg avg u i l s st, 0 < avg -> s * u <= 0 -> (forall v, In (i, v) l -> 0 <= (v : R)) ->
  solvent cfg st -> armed s st -> armed s (upds cfg avg u i l st).
Proof.
  intros cfg avg u i l s st Pa Su Pv So Sg.
  apply (fold_keeps (fun st => solvent cfg st /\ armed s st) (fun v => 0 <= (v : R)) cfg avg u); auto.
  intros x st0 Px (A & B). split; [now apply solvent_step|]. now apply armed_step.
Qed.
Lemma upds_moved : forall cfg avg u i l s st, 0 < avg -> s * u <= 0 -> (forall v, In (i, v) l -> 0 <= (v : R)) ->
  solvent cfg st -> moved s st -> moved s (upds cfg avg u i l st).
Proof.
  intros cfg avg u i l s st Pa Su Pv So Sg.
  apply (fold_keeps (fun st => solvent cfg st /\ moved s st) (fun v => 0 <= (v : R)) cfg avg u); auto.
  intros x st0 Px (A & B). split; [now apply solvent_step|]. apply armed_step; auto. apply B.
Qed.
Lemma upds_at : forall cfg avg u i l1 v l2 st, upds cfg avg u i (l1 ++ (i, v) :: l2) st = upds cfg avg u i l2 (iu cfg avg u v (upds cfg avg u i l1 st)).
Proof. intros. unfold upds. rewrite fold_left_app. cbn [fold_left fst snd]. now rewrite N.eqb_refl. Qed.
Lemma upds_arms : forall cfg avg u i l s v st, 0 < avg -> s * u < 0 -> (forall v, In (i, v) l -> 0 <= (v : R)) -> In (i, v) l -> 0 < (v : R) ->
  solvent cfg st -> signed s st -> armed s (upds cfg avg u i l st).
Proof.
  intros cfg avg u i l s v st Pa Su Pv Hv P So Sg. apply in_split in Hv. destruct Hv as (l1 & l2 & ->). rewrite upds_at.
  assert (So1 : solvent cfg (upds cfg avg u i l1 st)) by now apply upds_solvent.
  apply upds_armed; auto; [lra|intros x Hx; apply Pv; apply in_app_iff; right; now right|now apply solvent_step|].
  apply armed_first; auto. apply upds_signed; auto; [lra|]. intros x Hx. apply Pv. apply in_app_iff. now left.
Qed.
Lemma upds_moves : forall cfg avg u i l s v st, 0 < avg -> s * u <= 0 -> (forall v, In (i, v) l -> 0 <= (v : R)) -> In (i, v) l ->
  solvent cfg st -> armed s st -> moved s (upds cfg avg u i l st).
Proof.
  intros cfg avg u i l s v st Pa Su Pv Hv So Sg. assert (P0 : 0 <= (v : R)) by now apply Pv.
  apply in_split in Hv. destruct Hv as (l1 & l2 & ->). rewrite upds_at.
  assert (So1 : solvent cfg (upds cfg avg u i l1 st)) by now apply upds_solvent.
  apply upds_moved; auto; [intros x Hx; apply Pv; apply in_app_iff; right; now right|now apply solvent_step|].
  apply armed_step; auto. apply upds_armed; auto. intros x Hx. apply Pv. apply in_app_iff. now left.
Qed.
Lemma upds_none : forall cfg avg u i l st, (forall v, ~ In (i, v) l) -> upds cfg avg u i l st = st.
Proof.
  intros cfg avg u i l. induction l as [|[j v] l IH]; intros st H; [reflexivity|]. unfold upds in *. cbn [fold_left fst snd].
  destruct (N.eqb_spec j i) as [-> |]; [exfalso; apply (H v); now left|]. apply IH. intros x Hx. apply (H x). now right.
Qed.
Lemma upds_zero : forall cfg avg u i l st, u = 0 -> solvent cfg st -> fld (upds cfg avg u i l st) W_ZT = fld st W_ZT.
Proof.
  intros cfg avg u i l st -> So.
  apply (fold_keeps (fun st' => solvent cfg st' /\ fld st' W_ZT = fld st W_ZT) (fun _ => True) cfg avg 0); auto.
  intros x st0 _ (A & B). split; [now apply solvent_step|].
  destruct (iu_real cfg avg 0 x st0 (so_len _ _ A)) as (_ & _ & _ & Ez & _). rewrite Ez, B. ring.
Qed.

(** *** the run *)
Definition goodside (lo hi s y : R) : Prop := s = 1 /\ y = hi \/ s = -1 /\ y = lo.
Lemma side_sign : forall lo hi s y p w, goodside lo hi s y -> lo <= p <= hi -> 0 < w -> s * (2 * (p - y) * w) <= 0.
Proof.
  intros lo hi s y p w [(-> & ->)|(-> & ->)] P W.
  - assert (0 <= (hi - p) * w) by (apply Rmult_le_pos; lra). lra.
  - assert (0 <= (p - lo) * w) by (apply Rmult_le_pos; lra). lra.
Qed.
Lemma side_strict : forall lo hi s y w, goodside lo hi s y -> lo <= 0 <= hi -> y <> 0 -> 0 < w -> s * (2 * (0 - y) * w) < 0.
Proof.
  intros lo hi s y w [(-> & ->)|(-> & ->)] P Y W.
  - assert (0 < hi * w) by (apply Rmult_lt_0_compat; lra). lra.
  - assert (0 < (- lo) * w) by (apply Rmult_lt_0_compat; lra). lra.
Qed.

(** what is known of a weight that only good, or only bad, examples have *)
Definition level (k : nat) (s : R) (st : list RF) : Prop :=
  signed s st /\ match k with 0%nat => True | 1%nat => armed s st | _ => moved s st end.

Lemma only_app : forall dbg c h k i y, only_with dbg c (h ++ k) i y -> only_with dbg c h i y /\ only_with dbg c k i y.
Proof. intros dbg c h k i y H. split; intros e l v He; apply H; apply in_app_iff; auto. Qed.
Lemma only_cons : forall dbg c e k i y, only_with dbg c (e :: k) i y -> only_with dbg c k i y.
Proof. intros dbg c e k i y H e' l v He. apply H. now right. Qed.

Lemma step_level : forall dbg (c0 : coin RF) lo hi h c e i s y j c', linv dbg c0 lo hi h c -> fine (dw_fsize (co_w c0)) lo hi e ->
  (i < dw_fsize (co_w c0))%N -> goodside lo hi s y -> only_with dbg c0 [e] i y -> level j s (read (co_w c) i 0) ->
  coin_learn dbg c (ex_f e) (ex_y e) (ex_w e) = Ok c' -> level j s (read (co_w c') i 0).
Proof.
  intros dbg c0 lo hi h c e i s y j c' I T Hi Sd On Lv E.
  assert (Fs : dw_fsize (co_w c) = dw_fsize (co_w c0)) by apply (li_c _ _ _ _ _ _ I).
  destruct (learn_step dbg c0 lo hi h c e I T) as (l & p & avg & u & c1 & El & E1 & I1 & Pa & Pr & Eu & Bl & _ & Rd).
  rewrite E in E1. inversion E1; subst c1; clear E1. rewrite Rd by now rewrite Fs.
  fold (upds (co_cfg c0) avg u i l (read (co_w c) i 0)).
  assert (So : solvent (co_cfg c0) (read (co_w c) i 0)) by (apply (li_k _ _ _ _ _ _ I); now rewrite Fs).
  destruct (in_dec N.eq_dec i (map fst l)) as [J|J].
  - apply in_map_iff in J. destruct J as ([i' v] & Q & J). cbn [fst] in Q. subst i'.
    assert (Y : ex_y e = y) by (eapply On; [now left|exact El|exact J]).
    assert (Pv : forall v, In (i, v) l -> 0 <= (v : R)) by (intros x Hx; eapply On; [now left|exact El|exact Hx]).
    assert (Su : s * u <= 0) by (rewrite Eu, Y; apply (side_sign lo hi); auto; apply T).
    destruct Lv as (Sg & Lv). split; [now apply upds_signed|]. destruct j as [|[|j]]; auto.
    + now apply upds_armed.
    + now apply upds_moved.
  - rewrite upds_none; auto. intros v Hv. apply J. apply in_map_iff. now exists (i, v).
Qed.
Lemma run_level : forall dbg (c0 : coin RF) lo hi i s y j, (i < dw_fsize (co_w c0))%N -> goodside lo hi s y ->
  forall k h c, linv dbg c0 lo hi h c -> Forall (fine (dw_fsize (co_w c0)) lo hi) k -> only_with dbg c0 k i y ->
  level j s (read (co_w c) i 0) ->
  exists c', train dbg k c = Ok c' /\ linv dbg c0 lo hi (h ++ k) c' /\ level j s (read (co_w c') i 0).
Proof.
  intros dbg c0 lo hi i s y j Hi Sd k. induction k as [|e k IH]; intros h c I T On Lv.
  - exists c. rewrite app_nil_r. split; [reflexivity|]. auto.
  - inversion T as [|? ? T1 T2]; subst.
    destruct (learn_step dbg c0 lo hi h c e I T1) as (l & p & avg & u & c1 & El & E1 & I1 & _).
    assert (L1 : level j s (read (co_w c1) i 0)).
    { apply (step_level dbg c0 lo hi h c e i s y j c1 I T1 Hi Sd); auto. intros e' l' v [<- |[]]. apply On. now left. }
    destruct (IH _ _ I1 T2 (only_cons _ _ _ _ _ _ On) L1) as (c2 & E2 & I2 & L2). rewrite <- app_assoc in I2.
    exists c2. split; [|split; auto]. unfold train. cbn [foldm]. rewrite E1. exact E2.
Qed.
Lemma run_linv : forall dbg (c0 : coin RF) lo hi k h c, linv dbg c0 lo hi h c -> Forall (fine (dw_fsize (co_w c0)) lo hi) k ->
  exists c', train dbg k c = Ok c' /\ linv dbg c0 lo hi (h ++ k) c'.
Proof.
  intros dbg c0 lo hi k. induction k as [|e k IH]; intros h c I T.
  - exists c. rewrite app_nil_r. split; [reflexivity|]. auto.
  - inversion T as [|? ? T1 T2]; subst.
    destruct (learn_step dbg c0 lo hi h c e I T1) as (l & p & avg & u & c1 & El & E1 & I1 & _).
    destruct (IH _ _ I1 T2) as (c2 & E2 & I2). rewrite <- app_assoc in I2.
    exists c2. split; [|auto]. unfold train. cbn [foldm]. rewrite E1. exact E2.
Qed.
(** labels 0 move nothing *)
Definition flat (c : coin RF) : Prop := forall i, (i < dw_fsize (co_w c))%N -> fld (read (co_w c) i 0) W_ZT = 0.
Lemma run_flat : forall dbg (c0 : coin RF) lo hi k h c c', linv dbg c0 lo hi h c -> Forall (fine (dw_fsize (co_w c0)) lo hi) k ->
  Forall (fun e => ex_y e = 0) k -> flat c -> train dbg k c = Ok c' -> flat c'.
Proof.
  intros dbg c0 lo hi k. induction k as [|e k IH]; intros h c c' I T Y F E.
  - inversion E. now subst.
  - inversion T as [|? ? T1 T2]; subst. inversion Y as [|? ? Y1 Y2]; subst.
    destruct (learn_step dbg c0 lo hi h c e I T1) as (l & p & avg & u & c1 & El & E1 & I1 & Pa & Pr & Eu & Bl & P0 & Rd).
    unfold train in E. cbn [foldm] in E. rewrite E1 in E. cbn [bind] in E. apply (IH _ _ _ I1 T2 Y2); auto.
    intros i Hi. assert (Fs : dw_fsize (co_w c1) = dw_fsize (co_w c)).
    { transitivity (dw_fsize (co_w c0)); [apply (li_c _ _ _ _ _ _ I1)|symmetry; apply (li_c _ _ _ _ _ _ I)]. }
    rewrite Fs in Hi. rewrite Rd by auto. rewrite <- (F i Hi). apply (upds_zero (co_cfg c0) avg u i l).
    + rewrite Eu, (P0 F), Y1. ring.
    + now apply (li_k _ _ _ _ _ _ I).
Qed.
Lemma train_app : forall dbg h k (c : coin RF), train dbg (h ++ k) c = (let* c' := train dbg h c in train dbg k c').
Proof. intros dbg h k. induction h as [|e h IH]; intros c; [reflexivity|]. cbn [app]. unfold train in *. cbn [foldm]. destruct (coin_learn dbg c (ex_f e) (ex_y e) (ex_w e)); cbn [bind]; auto. Qed.

Lemma run_noticed : forall dbg (c0 : coin RF) lo hi i s y h, (i < dw_fsize (co_w c0))%N -> goodside lo hi s y ->
  linv dbg c0 lo hi [] c0 -> flat c0 -> Forall (fine (dw_fsize (co_w c0)) lo hi) h -> only_with dbg c0 h i y -> noticed dbg c0 h i ->
  level 0 s (read (co_w c0) i 0) ->
  exists c', train dbg h c0 = Ok c' /\ level 2 s (read (co_w c') i 0).
Proof.
  intros dbg c0 lo hi i s y h Hi Sd I F T On (h1 & e1 & h2 & e2 & h3 & l1 & l2 & v1 & v2 & -> & Y1 & Ye & El1 & J1 & P1 & El2 & J2) L0.
  apply Forall_app in T. destruct T as (T1 & T). inversion T as [|? ? Te1 T']; subst. apply Forall_app in T'. destruct T' as (T2 & T'). inversion T' as [|? ? Te2 T3]; subst.
  apply only_app in On. destruct On as (O1 & On). pose proof On as Oe1. apply only_cons in On. apply only_app in On. destruct On as (O2 & On).
  pose proof On as Oe2. apply only_cons in On.
  destruct (run_level dbg c0 lo hi i s y 0%nat Hi Sd h1 _ _ I T1 O1 L0) as (ca & Ea & Ia & La). cbn [app] in Ia.
  pose proof (run_flat dbg c0 lo hi h1 [] c0 ca I T1 Y1 F Ea) as Fa.
  assert (Sz : forall h c, linv dbg c0 lo hi h c -> dw_fsize (co_w c) = dw_fsize (co_w c0)) by (intros h' c' J; apply (li_c _ _ _ _ _ _ J)).
  destruct (learn_step dbg c0 lo hi _ ca e1 Ia Te1) as (l & p & avg & u & cb & El & Eb & Ib & Pa & Pr & Eu & Bl & P0 & Rd).
  rewrite El1 in El. inversion El; subst l; clear El.
  assert (Lb : level 1 s (read (co_w cb) i 0)).
  { rewrite Rd by now rewrite (Sz _ _ Ia). fold (upds (co_cfg c0) avg u i l1 (read (co_w ca) i 0)).
    assert (Ey : ex_y e1 = y) by (eapply Oe1; [now left|exact El1|exact J1]).
    assert (Pv : forall v, In (i, v) l1 -> 0 <= (v : R)) by (intros x Hx; eapply Oe1; [now left|exact El1|exact Hx]).
    assert (So : solvent (co_cfg c0) (read (co_w ca) i 0)) by (apply (li_k _ _ _ _ _ _ Ia); now rewrite (Sz _ _ Ia)).
    assert (Su : s * u < 0).
    { rewrite Eu, (P0 Fa), Ey. apply (side_strict lo hi); auto; [pose proof (li_z _ _ _ _ _ _ Ia); pose proof (li_lo _ _ _ _ _ _ Ia); pose proof (li_hi _ _ _ _ _ _ Ia); lra|congruence|apply Te1]. }
    destruct La as (La & _). split; [apply upds_signed; auto; lra|]. now apply (upds_arms _ _ _ _ _ _ v1). }
  destruct (run_level dbg c0 lo hi i s y 1%nat Hi Sd h2 _ _ Ib T2 O2 Lb) as (cc & Ec & Ic & Lc).
  destruct (learn_step dbg c0 lo hi _ cc e2 Ic Te2) as (l & p' & avg' & u' & cd & El & Ed & Id & Pa' & Pr' & Eu' & Bl' & _ & Rd').
  rewrite El2 in El. inversion El; subst l; clear El.
  assert (Ld : level 2 s (read (co_w cd) i 0)).
  { rewrite Rd' by now rewrite (Sz _ _ Ic). fold (upds (co_cfg c0) avg' u' i l2 (read (co_w cc) i 0)).
    assert (Ey : ex_y e2 = y) by (eapply Oe2; [now left|exact El2|exact J2]).
    assert (Pv : forall v, In (i, v) l2 -> 0 <= (v : R)) by (intros x Hx; eapply Oe2; [now left|exact El2|exact Hx]).
    assert (So : solvent (co_cfg c0) (read (co_w cc) i 0)) by (apply (li_k _ _ _ _ _ _ Ic); now rewrite (Sz _ _ Ic)).
    assert (Su : s * u' <= 0) by (rewrite Eu', Ey; apply (side_sign lo hi); auto; apply Te2).
    destruct Lc as (La' & Lc). split; [now apply upds_signed|]. now apply (upds_moves _ _ _ _ _ _ v2). }
  destruct (run_level dbg c0 lo hi i s y 2%nat Hi Sd h3 _ _ Id T3 On Ld) as (ce & Ee & Ie & Le).
  exists ce. split; auto.
  rewrite train_app, Ea. cbn [bind]. change (train dbg (e1 :: h2 ++ e2 :: h3) ca) with (let* c' := coin_learn dbg ca (ex_f e1) (ex_y e1) (ex_w e1) in train dbg (h2 ++ e2 :: h3) c').
  rewrite Eb. cbn [bind]. rewrite train_app, Ec. cbn [bind].
  change (train dbg (e2 :: h3) cc) with (let* c' := coin_learn dbg cc (ex_f e2) (ex_y e2) (ex_w e2) in train dbg h3 c').
  rewrite Ed. exact Ee.
Qed.

(** *** a new regressor *)
Lemma linv_new : forall H dbg (cfg : coin_config RF) gc nma (c0 : coin RF) lo hi, coin_new H dbg cfg gc nma = Ok c0 -> (0 < nma < 2 ^ 8)%N ->
  0 < (cc_alpha cfg : R) -> lo <= lo0 cfg -> hi0 cfg <= hi ->
  linv dbg c0 lo hi [] c0 /\ flat c0 /\ forall i s, (i < dw_fsize (co_w c0))%N -> level 0 s (read (co_w c0) i 0).
Proof.
  intros H dbg cfg gc nma c0 lo hi E Hn A Hlo Hhi.
  destruct (coin_new_wf _ _ _ _ _ _ E Hn) as (W & Bb & L & U & C & Ls & Z0).
  pose proof (cinv_init RF_ford _ _ _ _ _ _ E Hn) as I0. split; [|split].
  - constructor; auto.
    + now rewrite L.
    + rewrite L, U. unfold lo0, hi0. destruct (cc_loss cfg); rewrite ?RF_f0, ?RF_fl; [lra|]. cbn [f_neg RF]. lra.
    + now rewrite U.
    + unfold coin_new in E. apply bind_ok in E. destruct E as (pt & _ & E). destruct (cc_loss cfg);
      apply bind_ok in E; destruct E as (fs & _ & E); apply bind_ok in E; destruct E as (w & _ & E); inversion E; cbn [co_states];
      (destruct (N.to_nat nma) eqn:Q; [exfalso; lia|]); cbn [repeat]; (eexists _, _; split; [reflexivity|]); split; apply Req_le; symmetry; exact RF_f0.
    + intros i Hi. destruct (fresh_state _ _ _ _ _ _ _ E Hn Hi) as (Ln & F). rewrite C. now apply solvent_0.
  - intros i Hi. destruct (fresh_state _ _ _ _ _ _ _ E Hn Hi) as (Ln & F). apply F. unfold W_ZT. lia.
  - intros i s Hi. destruct (fresh_state _ _ _ _ _ _ _ E Hn Hi) as (Ln & F). split; auto. unfold signed, W_ZT, W_XT. rewrite !F by lia. lra.
Qed.

Lemma weight_signs : forall H dbg (cfg : coin_config RF) gc nma (c0 : coin RF) lo hi h, coin_new H dbg cfg gc nma = Ok c0 -> (0 < nma < 2 ^ 8)%N ->
  0 < (cc_alpha cfg : R) -> lo <= lo0 cfg -> hi0 cfg <= hi -> Forall (fine (dw_fsize (co_w c0)) lo hi) h ->
  exists c, train dbg h c0 = Ok c /\ linv dbg c0 lo hi h c /\ forall i s y, (i < dw_fsize (co_w c0))%N -> goodside lo hi s y -> only_with dbg c0 h i y ->
    0 <= s * fld (read (co_w c) i 0) W_XT /\ (noticed dbg c0 h i -> 0 < s * fld (read (co_w c) i 0) W_XT).
Proof.
  intros H dbg cfg gc nma c0 lo hi h E Hn A Hlo Hhi T.
  destruct (linv_new H dbg cfg gc nma c0 lo hi E Hn A Hlo Hhi) as (I0 & F0 & L0).
  destruct (run_linv dbg c0 lo hi h [] c0 I0 T) as (c & Ec & Ic). exists c. split; auto. split; auto.
  intros i s y Hi Sd On. split.
  - destruct (run_level dbg c0 lo hi i s y 0%nat Hi Sd h [] c0 I0 T On (L0 i s Hi)) as (c' & E' & _ & ((_ & Q) & _)).
    rewrite Ec in E'. inversion E'; subst. exact Q.
  - intros No. destruct (run_noticed dbg c0 lo hi i s y h Hi Sd I0 F0 T On No (L0 i s Hi)) as (c' & E' & (_ & (_ & Q))).
    rewrite Ec in E'. inversion E'; subst. exact Q.
Qed.

Lemma signs_main : forall H dbg (cfg : coin_config RF) gc nma n (c0 : coin RF) lo hi h i,
  coin_new H dbg cfg gc nma = Ok c0 -> (0 < nma < 2 ^ 8)%N -> bits_to_max_feature_index dbg (gc_bits gc) = Ok n ->
  0 < (cc_alpha cfg : R) -> lo <= lo0 cfg -> hi0 cfg <= hi -> Forall (fine n lo hi) h -> (i < n)%N ->
  exists c x rest, train dbg h c0 = Ok c /\ stored dbg c i = Ok (x :: rest) /\
    (only_with dbg c0 h i hi -> 0 <= (x : R) /\ (noticed dbg c0 h i -> 0 < (x : R))) /\
    (only_with dbg c0 h i lo -> (x : R) <= 0 /\ (noticed dbg c0 h i -> (x : R) < 0)).
Proof.
  intros H dbg cfg gc nma n c0 lo hi h i E Hn Hb A Hlo Hhi T Hi.
  destruct (coin_new_wf _ _ _ _ _ _ E Hn) as (W & Bb & L & U & C & Ls & Z0). rewrite Hb in Bb. inversion Bb; subst n; clear Bb.
  destruct (weight_signs H dbg cfg gc nma c0 lo hi h E Hn A Hlo Hhi T) as (c & Ec & Ic & Q).
  pose proof (li_c _ _ _ _ _ _ Ic) as [Wc Sh _ _ _ _ _ _].
  assert (Fs : dw_fsize (co_w c) = dw_fsize (co_w c0)) by apply Sh. assert (Hi' : (i < dw_fsize (co_w c))%N) by (rewrite Fs; exact Hi).
  pose proof (li_k _ _ _ _ _ _ Ic i Hi') as So. pose proof (so_len _ _ So) as Ln.
  destruct (read (co_w c) i 0) as [|x rest] eqn:Er; [discriminate|].
  exists c, x, rest. split; auto. split.
  { unfold stored. destruct (read_ok dbg (co_w c) i 0) as (Rk & _); [apply Wc|exact Hi'|pose proof (cw_ms _ _ Wc); lia|]. now rewrite Rk, Er. }
  split; intros On.
  - destruct (Q i 1 hi Hi (or_introl (conj eq_refl eq_refl)) On) as (Q1 & Q2). rewrite Er in *. unfold fld, sg, W_XT in *. cbn [nth] in *.
    split; [lra|]. intros No. specialize (Q2 No). lra.
  - destruct (Q i (-1) lo Hi (or_intror (conj eq_refl eq_refl)) On) as (Q1 & Q2). rewrite Er in *. unfold fld, sg, W_XT in *. cbn [nth] in *.
    split; [lra|]. intros No. specialize (Q2 No). lra.
Qed.

(** *** two predictions *)
Lemma predict_real : forall dbg (c0 : coin RF) lo hi h c f, linv dbg c0 lo hi h c -> below (dw_fsize (co_w c0)) f ->
  exists l q, coin_feats dbg c0 f = Ok l /\ (forall i v, In (i, v) l -> (i < dw_fsize (co_w c0))%N) /\
    coin_predict dbg c f = Ok (PrScalar q ((lsum (fun iv => snd iv * fld (read (co_w c) (fst iv) 0) W_XT) l : R) : RF)).
Proof.
  intros dbg c0 lo hi h c f I B. pose proof (li_c _ _ _ _ _ _ I) as [W Sh Rg _ _ Cf _ Fe].
  assert (Fs : dw_fsize (co_w c) = dw_fsize (co_w c0)) by apply Sh. rewrite <- Fs in B.
  destruct (feats_ok dbg c f W B) as (l & El & Bl).
  unfold coin_predict. rewrite El. cbn [bind]. rewrite (dot_ok dbg c l W Bl). cbn [bind].
  set (raw := fold_left _ l _). assert (Er : raw = lsum (fun iv => snd iv * fld (read (co_w c) (fst iv) 0) W_XT) l).
  { unfold raw. clear. rewrite RF_f0. assert (G : forall a : R, fold_left (fun (acc : RF) (iv : N * RF) => @f_add RF acc (@f_mul RF (snd iv) (nth 0 (read (co_w c) (fst iv) 0) 0))) l a =
      a + lsum (fun iv => snd iv * fld (read (co_w c) (fst iv) 0) W_XT) l).
    { induction l as [|iv l IH]; intros a; [symmetry; apply Rplus_0_r|]. cbn [fold_left]. rewrite IH. cbn [lsum fold_right]. fold (lsum (fun iv => snd iv * fld (read (co_w c) (fst iv) 0) W_XT) l).
      unfold fld at 2. unfold sg, W_XT at 2. rewrite RF_f0. cbn [f_add f_mul RF]. apply Rplus_assoc. }
    rewrite G. apply Rplus_0_l. }
  change (@f_isnan RF raw) with false. cbn match.
  destruct (clamp_real raw (co_min c) (co_max c)) as (q & Eq & _).
  { cbn [f_leb RF] in Rg. now destruct (Rleb_spec (co_min c) (co_max c)). }
  rewrite Eq. cbn [bind]. exists l. eexists. split; [now rewrite <- Fe|]. split; [intros i v Hv; rewrite <- Fs; now apply (Bl i v)|].
  rewrite Er. reflexivity.
Qed.
Lemma lsum_app : forall f a b, lsum f (a ++ b) = lsum f a + lsum f b.
Proof. intros f a b. unfold lsum. induction a as [|x a IH]; cbn [app fold_right]; [ring|]. rewrite IH. ring. Qed.
Lemma lsum_perm : forall f a b, Permutation a b -> lsum f a = lsum f b.
Proof. intros f a b P. unfold lsum. induction P; cbn [fold_right]; lra. Qed.
Lemma lsum_neg : forall f (l : list (N * RF)), (forall x, In x l -> f x <= 0) -> lsum f l <= 0 /\ ((exists x, In x l /\ f x < 0) -> lsum f l < 0).
Proof.
  intros f l. unfold lsum. induction l as [|x l IH]; intros H; cbn [fold_right].
  - split; [lra|]. intros (x & [] & _).
  - destruct IH as (I1 & I2); [intros y Hy; apply H; now right|]. pose proof (H x (or_introl eq_refl)). split; [lra|].
    intros (y & [-> |Hy] & Q); [lra|]. assert (fold_right (fun y a => f y + a) 0 l < 0) by (apply I2; now exists y). lra.
Qed.

Lemma order_core : forall dbg (c0 : coin RF) lo hi h c f g, linv dbg c0 lo hi h c ->
  (forall i s y, (i < dw_fsize (co_w c0))%N -> goodside lo hi s y -> only_with dbg c0 h i y ->
    0 <= s * fld (read (co_w c) i 0) W_XT /\ (noticed dbg c0 h i -> 0 < s * fld (read (co_w c) i 0) W_XT)) ->
  below (dw_fsize (co_w c0)) f -> below (dw_fsize (co_w c0)) g ->
  exists lf lg qf qg (rf rg : R), coin_feats dbg c0 f = Ok lf /\ coin_feats dbg c0 g = Ok lg /\
    coin_predict dbg c f = Ok (PrScalar qf (rf : RF)) /\ coin_predict dbg c g = Ok (PrScalar qg (rg : RF)) /\
    forall a b, told_apart dbg c0 h lo hi lf lg a b ->
      rf <= rg /\ (some_noticed dbg c0 h a \/ some_noticed dbg c0 h b -> rf < rg).
Proof.
  intros dbg c0 lo hi h c f g I Q Bf Bg.
  destruct (predict_real dbg c0 lo hi h c f I Bf) as (lf & qf & Ef & Blf & Pf).
  destruct (predict_real dbg c0 lo hi h c g I Bg) as (lg & qg & Eg & Blg & Pg).
  eexists lf, lg, qf, qg, _, _. split; auto. split; auto. split; [exact Pf|]. split; [exact Pg|].
  intros a b ((cm & P1 & P2) & Ha & Hb). set (w := fun iv : N * RF => snd iv * fld (read (co_w c) (fst iv) 0) W_XT).
  rewrite (lsum_perm w _ _ P1), (lsum_perm w _ _ P2), !lsum_app.
  assert (Ia : forall i v, In (i, v) a -> (i < dw_fsize (co_w c0))%N).
  { intros i v Hv. apply (Blf i v). apply (Permutation_in _ (Permutation_sym P1)). apply in_app_iff. now right. }
  assert (Ib : forall i v, In (i, v) b -> (i < dw_fsize (co_w c0))%N).
  { intros i v Hv. apply (Blg i v). apply (Permutation_in _ (Permutation_sym P2)). apply in_app_iff. now right. }
  destruct (lsum_neg w a) as (A1 & A2).
  { intros [i v] Hv. destruct (Ha i v Hv) as (Pv & On). destruct (Q i (-1) lo (Ia i v Hv) (or_intror (conj eq_refl eq_refl)) On) as (Q1 & _).
    unfold w. cbn [fst snd]. set (x := fld _ _) in *. assert (0 <= v * (- x)) by (apply Rmult_le_pos; lra). lra. }
  assert (Op : lsum w b = - lsum (fun iv => - w iv) b).
  { unfold lsum. clear. induction b as [|x b IH]; cbn [fold_right]; [ring|]. rewrite IH. ring. }
  destruct (lsum_neg (fun iv => - w iv) b) as (B1 & B2).
  { intros [i v] Hv. destruct (Hb i v Hv) as (Pv & On). destruct (Q i 1 hi (Ib i v Hv) (or_introl (conj eq_refl eq_refl)) On) as (Q1 & _).
    unfold w. cbn [fst snd]. set (x := fld _ _) in *. assert (0 <= v * x) by (apply Rmult_le_pos; lra). lra. }
  split; [lra|]. intros [(i & v & Hv & Pv & No)|(i & v & Hv & Pv & No)].
  - assert (lsum w a < 0); [|lra]. apply A2. exists (i, v). split; auto. destruct (Ha i v Hv) as (_ & On).
    destruct (Q i (-1) lo (Ia i v Hv) (or_intror (conj eq_refl eq_refl)) On) as (_ & Q2). specialize (Q2 No).
    unfold w. cbn [fst snd]. set (x := fld _ _) in *. assert (0 < v * (- x)) by (apply Rmult_lt_0_compat; lra). lra.
  - assert (lsum (fun iv => - w iv) b < 0); [|lra]. apply B2. exists (i, v). split; auto. destruct (Hb i v Hv) as (_ & On).
    destruct (Q i 1 hi (Ib i v Hv) (or_introl (conj eq_refl eq_refl)) On) as (_ & Q2). specialize (Q2 No).
    unfold w. cbn [fst snd]. set (x := fld _ _) in *. assert (0 < v * x) by (apply Rmult_lt_0_compat; lra). lra.
Qed.
Lemma order_main : forall H dbg (cfg : coin_config RF) gc nma n (c0 : coin RF) lo hi h f g,
  coin_new H dbg cfg gc nma = Ok c0 -> (0 < nma < 2 ^ 8)%N -> bits_to_max_feature_index dbg (gc_bits gc) = Ok n ->
  0 < (cc_alpha cfg : R) -> lo <= lo0 cfg -> hi0 cfg <= hi -> Forall (fine n lo hi) h -> below n f -> below n g ->
  exists c lf lg qf qg (rf rg : R), train dbg h c0 = Ok c /\ coin_feats dbg c0 f = Ok lf /\ coin_feats dbg c0 g = Ok lg /\
    coin_predict dbg c f = Ok (PrScalar qf (rf : RF)) /\ coin_predict dbg c g = Ok (PrScalar qg (rg : RF)) /\
    forall a b, told_apart dbg c0 h lo hi lf lg a b ->
      rf <= rg /\ (some_noticed dbg c0 h a \/ some_noticed dbg c0 h b -> rf < rg).
Proof.
  intros H dbg cfg gc nma n c0 lo hi h f g E Hn Hb A Hlo Hhi T Bf Bg.
  destruct (coin_new_wf _ _ _ _ _ _ E Hn) as (W & Bb & L & U & C & Ls & Z0). rewrite Hb in Bb. inversion Bb; subst n; clear Bb.
  destruct (weight_signs H dbg cfg gc nma c0 lo hi h E Hn A Hlo Hhi T) as (c & Ec & Ic & Q).
  destruct (order_core dbg c0 lo hi h c f g Ic Q Bf Bg) as (lf & lg & qf & qg & rf & rg & R1).
  exists c, lf, lg, qf, qg, rf, rg. split; auto.
Qed.
