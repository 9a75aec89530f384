(** C93: examples of weight zero and features of value zero. *)
From Coq Require Import List NArith ZArith Bool Lia Reals Lra.
From Verif Require Import Base FloatOps FloatR FloatB32 Model_Hash Model_Features Model_Weights Model_Loss
  Model_Interactions Model_Types Model_Coin Proof_Hash Proof_Weights Spec_Weights Proof_WeightsProps
  Proof_Foreach Proof_FloatOrder Spec_Coin Proof_StackRestore Proof_StackProps Proof_Coin Proof_CoinR Proof_Bettor Spec_Zero.
Import ListNotations.
Open Scope N_scope.

Lemma is_zero_R : forall v : RF, is_zero v <-> (v : R) = 0%R.
Proof.
  intros v. unfold is_zero. cbn [f_eqb RF]. rewrite RF_f0. destruct (Reqb_spec v 0); split; auto; discriminate.
Qed.

(** *** weight zero *)
Definition kept4 (a b : list RF) : Prop :=
  fld b W_ZT = fld a W_ZT /\ fld b W_G2 = fld a W_G2 /\ fld b W_WE = fld a W_WE /\ fld b W_MG = fld a W_MG /\
  (fld a W_MX <= fld b W_MX)%R.
Lemma iu_zero : forall cfg (avg u x : RF) st, length st = 6%nat -> (0 <= fld st W_MG)%R -> (u : R) = 0%R ->
  kept4 st (iu cfg avg u x st).
Proof.
  intros cfg avg u x st L M U. destruct (iu_real cfg avg u x st L) as (_ & Ex & Eg & Ez & E2 & Ew & _).
  unfold kept4. rewrite Ex, Ez, E2, Ew, U. rewrite U, Rabs_R0 in Eg. rewrite Rmult_0_l, Rabs_R0.
  split; [ring|]. split; [ring|]. split; [ring|]. split; [|apply Rmax_l]. destruct Eg as [(_ & ->)|(Q & _)]; lra.
Qed.
Lemma fold_zero : forall cfg (avg u : RF) i l st, length st = 6%nat -> (0 <= fld st W_MG)%R -> (u : R) = 0%R ->
  kept4 st (fold_left (fun st (iv : N * RF) => if fst iv =? i then iu cfg avg u (snd iv) st else st) l st).
Proof.
  intros cfg avg u i l. induction l as [|[j v] l IH]; intros st L M U; cbn [fold_left fst snd].
  - repeat split; lra.
  - destruct (j =? i); [|now apply IH]. pose proof (iu_zero cfg avg u v st L M U) as (A1 & A2 & A3 & A4 & A5).
    destruct (IH (iu cfg avg u v st)) as (B1 & B2 & B3 & B4 & B5); auto; [now apply iu_ok|lra|].
    unfold kept4. repeat split; lra.
Qed.
Lemma betting_states : forall dbg (c : coin RF) f p c', coin_betting_predict dbg c f (0%R : RF) = Ok (p, c') -> co_states c' = co_states c.
Proof.
  intros dbg c f p c' E. unfold coin_betting_predict in E. binv E. binv E.
  destruct (co_states c) as [|[a b] r] eqn:Q; [discriminate|]. cbn [nth_error opt_or bind fst snd] in E. binv E. inversion E; subst.
  cbn [co_states upd f_add f_mul RF]. rewrite Rmult_0_r, !Rplus_0_r. reflexivity.
Qed.
Lemma learn_states : forall dbg (c : coin RF) f y w p cb c', coin_learn dbg c f y w = Ok c' ->
  coin_betting_predict dbg (coin_range c y) f w = Ok (p, cb) -> co_states c' = co_states cb /\ co_avg c' = co_avg cb.
Proof.
  intros dbg c f y w p cb c' E B. unfold coin_learn in E. rewrite B in E. cbn [bind fst snd] in E. unfold coin_update in E. binv E. binv E.
  inversion E; subst. auto.
Qed.
Lemma weight_zero_main : forall H dbg (cfg : coin_config RF) gc nma n (c0 : coin RF) h e,
  coin_new H dbg cfg gc nma = Ok c0 -> 0 < nma < 2 ^ 8 ->
  bits_to_max_feature_index dbg (gc_bits gc) = Ok n ->
  Forall (fun e => below n (ex_f e)) h -> below n (ex_f e) -> (ex_w e : R) = 0%R ->
  exists c c', train dbg h c0 = Ok c /\ coin_learn dbg c (ex_f e) (ex_y e) (ex_w e) = Ok c' /\
    co_states c' = co_states c /\
    forall i, i < n -> exists st st', stored dbg c i = Ok st /\ stored dbg c' i = Ok st' /\
      sg st' W_ZT = sg st W_ZT /\ sg st' W_G2 = sg st W_G2 /\ sg st' W_WE = sg st W_WE /\ sg st' W_MG = sg st W_MG /\
      ((sg st W_MX : R) <= (sg st' W_MX : R))%R.
Proof.
  intros H dbg cfg gc nma n c0 h e E Hn Hb Bh Be We.
  destruct (coin_new_wf _ _ _ _ _ _ E Hn) as (W & B & _ & _ & C & _ & Z0).
  rewrite Hb in B. inversion B; subst n; clear B.
  pose proof (cinv_init RF_ford _ _ _ _ _ _ E Hn) as I0.
  destruct (train_mok RF_ford dbg c0 h [] c0 I0 Bh eq_refl (cmok_init RF_ford _ _ _ _ _ _ E Hn)) as (c & Et & I & M & Le & _).
  assert (Fs : dw_fsize (co_w c) = dw_fsize (co_w c0)) by apply I.
  assert (B' : below (dw_fsize (co_w c)) (ex_f e)) by now rewrite Fs.
  destruct (learn_ok dbg c (ex_f e) (ex_y e) (ex_w e) (ci_wf _ _ _ _ I) B' (range_step RF_ford _ _ (ci_range _ _ _ _ I)))
    as (c' & l & p & cb & u & E' & W' & El & Ep & Eu & M1 & M2 & C1 & C2 & C3 & C4 & C5 & C6 & S' & Rd).
  exists c, c'. split; auto. split; auto. split.
  { rewrite (proj1 (learn_states _ _ _ _ _ _ _ _ E' Ep)). rewrite We in Ep. apply betting_states in Ep. exact Ep. }
  assert (Fs' : dw_fsize (co_w c') = dw_fsize (co_w c)) by apply S'.
  intros i Hi. exists (read (co_w c) i 0), (read (co_w c') i 0).
  split; [apply (read6 dbg c i (ci_wf _ _ _ _ I)); now rewrite Fs|].
  split; [apply (read6 dbg c' i W'); now rewrite Fs', Fs|].
  rewrite Rd by now rewrite Fs. apply fold_zero.
  - apply (M i). now rewrite Fs.
  - destruct (Le i Hi) as (_ & Q). rewrite (read_zeros _ _ _ (cw_wf _ _ W) Hi (cw_ms _ _ W) Z0), (cw_ss _ _ W) in Q.
    change (sg (repeat (@f0 RF) (N.to_nat 6)) W_MG) with (@f0 RF) in Q. cbn [f_leb RF] in Q. rewrite RF_f0 in Q.
    revert Q. unfold fld. match goal with |- Rleb ?a ?b = true -> _ => destruct (Rleb_spec a b) as [Q|Q]; [intros _; exact Q|discriminate] end.
  - rewrite Eu, We. apply Rmult_0_r.
Qed.

(** *** value zero *)
Definition dotf (c : coin RF) (l : list (N * RF)) (a : RF) : RF :=
  fold_left (fun acc iv => f_add RF acc (f_mul RF (snd iv) (nth 0 (read (co_w c) (fst iv) 0) f0))) l a.
Lemma thin_dot : forall c l k, thinned l k -> forall a, dotf c l a = dotf c k a.
Proof.
  intros c l k T. induction T as [|p l k T IH|i v l k Z T IH]; intros a; unfold dotf in *; cbn [fold_left fst snd]; auto.
  apply is_zero_R in Z. rewrite Z. rewrite <- IH. f_equal. cbn [f_add f_mul RF]. rewrite Rmult_0_l. apply Rplus_0_r.
Qed.
Lemma thin_in : forall l k : list (N * RF), thinned l k -> forall p, In p k -> In p l.
Proof. intros l k T. induction T; cbn; intuition. Qed.
Lemma zero_predict_main : forall H dbg (cfg : coin_config RF) gc nma n (c0 : coin RF) h f g,
  coin_new H dbg cfg gc nma = Ok c0 -> 0 < nma < 2 ^ 8 ->
  bits_to_max_feature_index dbg (gc_bits gc) = Ok n ->
  Forall (fun e => below n (ex_f e)) h -> below n f -> thinner dbg c0 f g ->
  exists c p, train dbg h c0 = Ok c /\ coin_predict dbg c f = Ok p /\ coin_predict dbg c g = Ok p.
Proof.
  intros H dbg cfg gc nma n c0 h f g E Hn Hb Bh Bf (l & k & El & Ek & T).
  destruct (coin_new_wf _ _ _ _ _ _ E Hn) as (W & B & _ & _ & C & _ & Z0).
  rewrite Hb in B. inversion B; subst n; clear B.
  pose proof (cinv_init RF_ford _ _ _ _ _ _ E Hn) as I0.
  destruct (cinv_train RF_ford dbg c0 h I0 Bh) as (c & Et & I).
  destruct (predict_range RF_ford dbg c0 h c f I Bf) as (q & raw & Ep & _).
  exists c, (PrScalar (link_fun (cc_link (co_cfg c)) q) raw). split; auto. rewrite (ci_cfg _ _ _ _ I) in *. split; auto.
  rewrite <- (ci_feats _ _ _ _ I) in El, Ek. pose proof (ci_wf _ _ _ _ I) as Wc.
  assert (Fs : dw_fsize (co_w c) = dw_fsize (co_w c0)) by apply I.
  destruct (feats_ok dbg c f Wc) as (l' & El' & Bl); [now rewrite Fs|]. rewrite El in El'. inversion El'; subst l'; clear El'.
  unfold coin_predict in *. rewrite Ek. rewrite El in Ep. cbn [bind] in *.
  rewrite (dot_ok dbg c l Wc Bl) in Ep. rewrite (dot_ok dbg c k Wc) by (intros i v Hi; apply (Bl i v); eapply thin_in; eauto).
  pose proof (thin_dot c l k T f0) as Q. unfold dotf in Q. rewrite <- Q. exact Ep.
Qed.

(** *** always zero *)
Section Idle.
Variable dbg : bool.
Variable c0 : coin RF.
Variable D : N -> bool.
Let live (iv : N * RF) : bool := negb (D (fst iv)).
Definition rfold (c : coin RF) (l : list (N * RF)) (a : RF * RF) : out (RF * RF) :=
  foldm (fun acc iv => let* st := dw_state_at dbg (co_w c) (fst iv) 0 in inner_predict (co_cfg c) acc (snd iv) st) l a.
(** the same regressor up to the rows of the indices in [D] *)
Record alike (c c' : coin RF) : Prop := mkAlike {
  al_rows : forall i, i < dw_fsize (co_w c0) -> D i = false -> read (co_w c) i 0 = read (co_w c') i 0;
  al_states : co_states c = co_states c';
  al_min : co_min c = co_min c';
  al_max : co_max c = co_max c'
}.
Lemma inner_zero : forall cfg (a : RF * RF) (x : RF) st, length st = 6%nat -> (x : R) = 0%R -> inner_predict cfg a x st = Ok a.
Proof.
  intros cfg [p q] x st L Z. unfold inner_predict. rewrite L. cbn [Nat.eqb fst snd]. rewrite Z. cbn [f_add f_mul f_div RF].
  rewrite Rmult_0_r, Rplus_0_r. unfold Rdiv. rewrite !Rmult_0_l, Rplus_0_r. now destruct (f_gtb _ _).
Qed.
Lemma alike_reads : forall c c' l a, cwf dbg c -> cwf dbg c' -> dw_fsize (co_w c) = dw_fsize (co_w c0) ->
  dw_fsize (co_w c') = dw_fsize (co_w c0) -> co_cfg c = co_cfg c' -> alike c c' ->
  (forall i v, In (i, v) l -> i < dw_fsize (co_w c0)) ->
  (forall i v, In (i, v) l -> D i = true -> is_zero v) ->
  rfold c l a = rfold c' (filter live l) a.
Proof.
  intros c c' l a W W' F F' Cf A. revert a. unfold rfold. rewrite <- Cf. induction l as [|[i v] l IH]; intros a B Z; cbn [filter foldm fst snd]; auto.
  assert (Hi : i < dw_fsize (co_w c0)) by (apply (B i v); now left).
  destruct (read6 dbg c i W) as (E & L); [now rewrite F|]. rewrite E. cbn [bind].
  assert (B' : forall i v, In (i, v) l -> i < dw_fsize (co_w c0)) by (intros j x Hj; apply (B j x); now right).
  assert (Z' : forall i v, In (i, v) l -> D i = true -> is_zero v) by (intros j x Hj; apply (Z j x); now right).
  unfold live at 1. cbn [fst]. destruct (D i) eqn:Q; cbn [negb foldm fst snd].
  - rewrite inner_zero; auto; [|apply is_zero_R, (Z i v); auto; now left]. cbn [bind]. now apply IH.
  - destruct (read6 dbg c' i W') as (E' & L'); [now rewrite F'|]. rewrite E'. cbn [bind]. rewrite <- (al_rows _ _ A i Hi Q).
    destruct (inner_predict (co_cfg c) a v (read (co_w c) i 0)); cbn [bind]; auto.
Qed.
Lemma alike_betting : forall c c' f g w p cb, cwf dbg c -> cwf dbg c' -> dw_fsize (co_w c) = dw_fsize (co_w c0) ->
  dw_fsize (co_w c') = dw_fsize (co_w c0) -> co_cfg c = co_cfg c' -> alike c c' ->
  (forall x, coin_feats dbg c x = coin_feats dbg c0 x) -> (forall x, coin_feats dbg c' x = coin_feats dbg c0 x) ->
  below (dw_fsize (co_w c0)) f -> without dbg c0 D f g ->
  coin_betting_predict dbg c f w = Ok (p, cb) ->
  exists cb', coin_betting_predict dbg c' g w = Ok (p, cb') /\ co_states cb = co_states cb' /\ co_avg cb = co_avg cb'.
Proof.
  intros c c' f g w p cb W W' F F' Cf A Fe Fe' Bf (l & El & Eg & Z) E. unfold coin_betting_predict in *.
  rewrite Fe, El in E. rewrite Fe', Eg. cbn [bind] in *.
  destruct (feats_ok dbg c f W) as (l' & El' & Bl); [now rewrite F|]. rewrite Fe, El in El'. inversion El'; subst l'; clear El'. rewrite F in Bl.
  pose proof (alike_reads c c' l (f0, f0) W W' F F' Cf A Bl Z) as Q. unfold rfold in Q. unfold live in Q. rewrite <- Q, <- (al_states _ _ A).
  binv E. binv E. rewrite B. cbn [bind]. rewrite B0. cbn [bind]. rewrite <- (al_min _ _ A), <- (al_max _ _ A).
  binv E. rewrite B1. cbn [bind]. inversion E; subst. eexists. split; [reflexivity|]. split; auto.
Qed.
Lemma fold_live : forall A (step : A -> RF -> A) l i a, D i = false ->
  fold_left (fun st (iv : N * RF) => if fst iv =? i then step st (snd iv) else st) (filter live l) a =
  fold_left (fun st (iv : N * RF) => if fst iv =? i then step st (snd iv) else st) l a.
Proof.
  intros A step l i a Hi. revert a. induction l as [|[j v] l IH]; intros a; auto. cbn [filter]. unfold live at 1. cbn [fst].
  destruct (D j) eqn:Q; cbn [negb fold_left fst snd]; [|apply IH].
  destruct (j =? i) eqn:J; [apply N.eqb_eq in J; congruence|apply IH].
Qed.
Lemma alike_step : forall h h' c c' e e', cinv dbg c0 h c -> cinv dbg c0 h' c' -> alike c c' ->
  below (dw_fsize (co_w c0)) (ex_f e) -> below (dw_fsize (co_w c0)) (ex_f e') -> same_but (without dbg c0 D) e e' ->
  exists d d', coin_learn dbg c (ex_f e) (ex_y e) (ex_w e) = Ok d /\ coin_learn dbg c' (ex_f e') (ex_y e') (ex_w e') = Ok d' /\
    cinv dbg c0 (h ++ [e]) d /\ cinv dbg c0 (h' ++ [e']) d' /\ alike d d'.
Proof.
  intros h h' c c' e e' I I' A Be Be' (Wo & Ey & Ew). rewrite <- Ey, <- Ew.
  destruct (cinv_step RF_ford dbg c0 h c e I Be) as (d & Ed & Id). destruct (cinv_step RF_ford dbg c0 h' c' e' I' Be') as (d' & Ed' & Id').
  rewrite <- Ey, <- Ew in Ed'. exists d, d'. split; auto. split; auto. split; auto. split; auto.
  assert (F : dw_fsize (co_w c) = dw_fsize (co_w c0)) by apply I. assert (F' : dw_fsize (co_w c') = dw_fsize (co_w c0)) by apply I'.
  destruct (learn_ok dbg c (ex_f e) (ex_y e) (ex_w e) (ci_wf _ _ _ _ I) ltac:(now rewrite F) (range_step RF_ford _ _ (ci_range _ _ _ _ I)))
    as (x & l & p & cb & u & E1 & W1 & El & Ep & Eu & M1 & M2 & _ & _ & _ & _ & _ & _ & S1 & Rd).
  rewrite Ed in E1. inversion E1; subst x; clear E1.
  destruct (learn_ok dbg c' (ex_f e') (ex_y e) (ex_w e) (ci_wf _ _ _ _ I') ltac:(now rewrite F') (range_step RF_ford _ _ (ci_range _ _ _ _ I')))
    as (x & l' & p' & cb' & u' & E1 & W1' & El' & Ep' & Eu' & M1' & M2' & _ & _ & _ & _ & _ & _ & S1' & Rd').
  rewrite Ed' in E1. inversion E1; subst x; clear E1.
  assert (Cf : co_cfg c = co_cfg c') by (rewrite (ci_cfg _ _ _ _ I), (ci_cfg _ _ _ _ I'); reflexivity).
  assert (Lo : co_loss c = co_loss c') by (rewrite (ci_loss _ _ _ _ I), (ci_loss _ _ _ _ I'); reflexivity).
  destruct (alike_betting (coin_range c (ex_y e)) (coin_range c' (ex_y e)) (ex_f e) (ex_f e') (ex_w e) p cb) as (cb2 & E2 & Es & Ea); auto.
  { destruct (ci_wf _ _ _ _ I); constructor; auto. }
  { destruct (ci_wf _ _ _ _ I'); constructor; auto. }
  { destruct A as [A1 A2 A3 A4]. constructor; cbn [coin_range co_w co_states co_min co_max]; auto; congruence. }
  { intros y. exact (ci_feats _ _ _ _ I y). }
  { intros y. exact (ci_feats _ _ _ _ I' y). }
  rewrite E2 in Ep'. inversion Ep'; subst p' cb2; clear Ep'.
  assert (u' = u) as -> by (rewrite Eu, Eu', Lo, (al_min _ _ A), (al_max _ _ A); reflexivity).
  destruct (learn_states _ _ _ _ _ _ _ _ Ed Ep) as (Q1 & _). destruct (learn_states _ _ _ _ _ _ _ _ Ed' E2) as (Q2 & _).
  constructor.
  - intros i Hi Di. rewrite Rd by now rewrite F. rewrite Rd' by now rewrite F'.
    destruct Wo as (k & Ek & Ek' & _). rewrite (ci_feats _ _ _ _ I), Ek in El. rewrite (ci_feats _ _ _ _ I'), Ek' in El'.
    inversion El; subst k. inversion El'; subst l'.
    rewrite <- Cf, <- Ea, <- (al_rows _ _ A i Hi Di). symmetry.
    exact (fold_live _ (fun st x => iu (co_cfg c) (co_avg cb) u x st) l i (read (co_w c) i 0) Di).
  - congruence.
  - rewrite M1, M1', (al_min _ _ A). reflexivity.
  - rewrite M2, M2', (al_max _ _ A). reflexivity.
Qed.
Lemma alike_train : forall k k', Forall2 (same_but (without dbg c0 D)) k k' ->
  forall h h' c c', cinv dbg c0 h c -> cinv dbg c0 h' c' -> alike c c' ->
  Forall (fun e => below (dw_fsize (co_w c0)) (ex_f e)) k -> Forall (fun e => below (dw_fsize (co_w c0)) (ex_f e)) k' ->
  exists d d', train dbg k c = Ok d /\ train dbg k' c' = Ok d' /\
    cinv dbg c0 (h ++ k) d /\ cinv dbg c0 (h' ++ k') d' /\ alike d d'.
Proof.
  intros k k' R. induction R as [|e e' k k' Re R IH]; intros h h' c c' I I' A B B'.
  - exists c, c'. rewrite !app_nil_r. cbn. auto 10.
  - inversion B; subst. inversion B'; subst.
    destruct (alike_step h h' c c' e e' I I' A) as (d & d' & E & E' & Id & Id' & Ad); auto.
    destruct (IH (h ++ [e]) (h' ++ [e']) d d' Id Id' Ad) as (x & x' & Ex & Ex' & Ix & Ix' & Ax); auto.
    rewrite <- app_assoc in Ix, Ix'. exists x, x'. unfold train in *. cbn [foldm]. rewrite E, E'. cbn [bind]. auto.
Qed.
Lemma live_dot : forall c c' l a, alike c c' -> (forall i v, In (i, v) l -> i < dw_fsize (co_w c0)) ->
  (forall i v, In (i, v) l -> D i = true -> is_zero v) -> dotf c l a = dotf c' (filter live l) a.
Proof.
  intros c c' l a A. revert a. unfold dotf. induction l as [|[i v] l IH]; intros a B Z; auto. cbn [filter]. unfold live at 1. cbn [fst].
  assert (B' : forall i v, In (i, v) l -> i < dw_fsize (co_w c0)) by (intros j x Hj; apply (B j x); now right).
  assert (Z' : forall i v, In (i, v) l -> D i = true -> is_zero v) by (intros j x Hj; apply (Z j x); now right).
  destruct (D i) eqn:Q; cbn [negb fold_left fst snd].
  - assert (Zv : (v : R) = 0%R) by (apply is_zero_R, (Z i v); auto; now left). rewrite <- IH by auto. f_equal. rewrite Zv.
    cbn [f_add f_mul RF]. rewrite Rmult_0_l. apply Rplus_0_r.
  - rewrite (al_rows _ _ A i (B i v (or_introl eq_refl)) Q). apply IH; auto.
Qed.
Lemma alike_predict : forall h h' c c' f g, cinv dbg c0 h c -> cinv dbg c0 h' c' -> alike c c' ->
  below (dw_fsize (co_w c0)) f -> without dbg c0 D f g ->
  exists p, coin_predict dbg c f = Ok p /\ coin_predict dbg c' g = Ok p.
Proof.
  intros h h' c c' f g I I' A Bf (l & El & Eg & Z).
  destruct (predict_range RF_ford dbg c0 h c f I Bf) as (q & raw & Ep & _).
  rewrite Ep. eexists. split; [reflexivity|]. rewrite <- Ep. unfold coin_predict.
  assert (F : dw_fsize (co_w c) = dw_fsize (co_w c0)) by apply I. assert (F' : dw_fsize (co_w c') = dw_fsize (co_w c0)) by apply I'.
  rewrite (ci_feats _ _ _ _ I), (ci_feats _ _ _ _ I'), El, Eg. cbn [bind].
  destruct (feats_ok dbg c f (ci_wf _ _ _ _ I)) as (k & Ek & Bl); [now rewrite F|]. rewrite (ci_feats _ _ _ _ I), El in Ek. inversion Ek; subst k; clear Ek.
  rewrite (dot_ok dbg c l (ci_wf _ _ _ _ I) Bl). rewrite F in Bl.
  rewrite (dot_ok dbg c' _ (ci_wf _ _ _ _ I')) by (intros i v Hi; apply filter_In in Hi; rewrite F'; apply (Bl i v); tauto).
  pose proof (live_dot c c' l f0 A Bl Z) as Q. unfold dotf, live in Q. rewrite Q. cbn [bind].
  rewrite (al_min _ _ A), (al_max _ _ A), (ci_cfg _ _ _ _ I), (ci_cfg _ _ _ _ I'). reflexivity.
Qed.
End Idle.
Lemma always_zero_main : forall H dbg (cfg : coin_config RF) gc nma n (c0 : coin RF) D h h' f g,
  coin_new H dbg cfg gc nma = Ok c0 -> 0 < nma < 2 ^ 8 ->
  bits_to_max_feature_index dbg (gc_bits gc) = Ok n ->
  Forall (fun e => below n (ex_f e)) h -> Forall (fun e => below n (ex_f e)) h' -> below n f ->
  Forall2 (same_but (without dbg c0 D)) h h' -> without dbg c0 D f g ->
  exists c c' p, train dbg h c0 = Ok c /\ train dbg h' c0 = Ok c' /\
    coin_predict dbg c f = Ok p /\ coin_predict dbg c' g = Ok p.
Proof.
  intros H dbg cfg gc nma n c0 D h h' f g E Hn Hb Bh Bh' Bf R Wo.
  destruct (coin_new_wf _ _ _ _ _ _ E Hn) as (W & B & _ & _ & C & _ & Z0).
  rewrite Hb in B. inversion B; subst n; clear B.
  pose proof (cinv_init RF_ford _ _ _ _ _ _ E Hn) as I0.
  destruct (alike_train dbg c0 D h h' R [] [] c0 c0 I0 I0) as (c & c' & Ec & Ec' & I & I' & A); auto; [constructor; auto|].
  destruct (alike_predict dbg c0 D _ _ c c' f g I I' A Bf Wo) as (p & P & P'). exists c, c', p. auto.
Qed.
