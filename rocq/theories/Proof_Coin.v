(** The coin regressor: C18, C19, C20, C46. *)
From Coq Require Import List NArith ZArith Bool Lia Reals Lra.
From Verif Require Import Base FloatOps FloatR FloatB32 Model_Hash Model_Features Model_Weights Model_Loss
  Model_Interactions Model_Types Model_Coin Proof_Hash Proof_Weights Spec_Weights Proof_WeightsProps
  Proof_Foreach Proof_FloatOrder Spec_Coin.
Import ListNotations.
Open Scope N_scope.

Section Coin.
Context {O : FOps}.

(** ** the shape of a regressor *)
Record cwf (dbg : bool) (c : coin O) : Prop := mkCwf {
  cw_wf : dw_wf (co_w c);
  cw_bits : bits_to_max_feature_index dbg (co_bits c) = Ok (dw_fsize (co_w c));
  cw_ss : dw_ssize (co_w c) = 6;
  cw_ms : 0 < dw_msize (co_w c);
  cw_states : co_states c <> []
}.

Lemma coin_new_wf : forall H dbg cfg gc nma c, coin_new H dbg cfg gc nma = Ok c -> 0 < nma < 2 ^ 8 ->
  cwf dbg c /\ bits_to_max_feature_index dbg (gc_bits gc) = Ok (dw_fsize (co_w c)) /\
  co_min c = lo0 cfg /\ co_max c = hi0 cfg /\ co_cfg c = cfg /\ co_loss c = LossSquared /\
  dw_w (co_w c) = repeat f0 (length (dw_w (co_w c))).
Proof.
  intros H dbg cfg gc nma c E Hn. unfold coin_new in E.
  apply bind_ok in E. destruct E as (pt & _ & E).
  assert (E' : (let* fsize := bits_to_max_feature_index dbg (gc_bits gc) in
     let* w := dw_new O dbg fsize nma 6 in
     Ok (mkCoin w cfg (repeat (f0, f0) (N.to_nat nma)) f0 (lo0 cfg) (hi0 cfg) LossSquared
             (fst pt) (snd pt) (gc_bits gc) (gc_const gc))) = Ok c).
  { unfold lo0, hi0. destruct (cc_loss cfg); exact E. }
  clear E. apply bind_ok in E'. destruct E' as (fs & B & E). apply bind_ok in E. destruct E as (w & W & E).
  inversion E; subst; clear E.
  assert (fs <> 0 /\ fs < 2 ^ 32) as (F1 & F2).
  { unfold bits_to_max_feature_index in B.
    destruct (gc_bits gc <? 32) eqn:L.
    - inversion B. apply N.ltb_lt in L. split; [apply N.pow_nonzero; lia|apply N.pow_lt_mono_r; lia].
    - destruct dbg; inversion B. assert (gc_bits gc mod 32 < 32) by (apply N.mod_lt; lia).
      split; [apply N.pow_nonzero; lia|apply N.pow_lt_mono_r; lia]. }
  destruct (@dw_new_ok O dbg fs nma 6) as (w' & W1 & W2 & W3 & W4 & W5 & W6); auto; try lia.
  rewrite W in W1. inversion W1; subst w'. rewrite <- W3 in B.
  split; [|cbn; auto 10]. constructor; cbn; auto.
  - rewrite W4. lia.
  - destruct (N.to_nat nma) eqn:K; [lia|discriminate].
Qed.

Lemma bits_mask : forall dbg nb n, bits_to_max_feature_index dbg nb = Ok n ->
  exists mk, mask_from_bits dbg nb = Ok mk.
Proof.
  intros dbg nb n. unfold bits_to_max_feature_index, mask_from_bits.
  destruct (nb <? 32); eauto. destruct dbg; eauto; discriminate.
Qed.

Lemma feats_ok : forall dbg c f, cwf dbg c -> below (dw_fsize (co_w c)) f ->
  exists l, coin_feats dbg c f = Ok l /\ forall i v, In (i, v) l -> i < dw_fsize (co_w c).
Proof.
  intros dbg c f W B. destruct (bits_mask _ _ _ (cw_bits _ _ W)) as (mk & Hmk).
  assert (exists l, coin_feats dbg c f = Ok l) as (l & Hl).
  { unfold coin_feats, fe_list. rewrite Hmk. cbn [bind]. unfold constant_feature_index.
    rewrite (cw_bits _ _ W). cbn [bind]. destruct (co_const c); cbn [bind]; eauto. }
  exists l. split; auto. intros i v Hin.
  destruct (fe_list_in _ _ _ _ _ _ _ Hl) as (b & _ & Hb & K).
  rewrite (cw_bits _ _ W) in Hb. inversion Hb as [E].
  destruct (K i v Hin) as [Q|Q]; [apply (B _ _ Q)|congruence].
Qed.

Lemma read6 : forall dbg c i, cwf dbg c -> i < dw_fsize (co_w c) ->
  dw_state_at dbg (co_w c) i 0 = Ok (read (co_w c) i 0) /\ length (read (co_w c) i 0) = 6%nat.
Proof.
  intros dbg c i W Hi. destruct (read_ok dbg (co_w c) i 0 (cw_wf _ _ W) Hi (cw_ms _ _ W)) as (E & L).
  rewrite (cw_ss _ _ W) in L. auto.
Qed.

Lemma weight_ok : forall dbg c i, cwf dbg c -> i < dw_fsize (co_w c) ->
  dw_weight_at dbg (co_w c) i 0 = Ok (nth 0 (read (co_w c) i 0) f0).
Proof.
  intros dbg c i W Hi. destruct (read6 dbg c i W Hi) as (E & L).
  unfold dw_weight_at. unfold dw_state_at in E. rewrite dw_index_ok in * by (auto; apply (cw_ms _ _ W)).
  cbn [bind] in *. apply slice_inv in E. destruct E as (E1 & E2 & E3).
  set (k := N.to_nat (cell (dw_mshift (co_w c)) (dw_sshift (co_w c)) i 0)) in *.
  assert (K : (k < length (dw_w (co_w c)))%nat).
  { pose proof (cell_of_bound (co_w c) i 0 (cw_wf _ _ W) Hi (cw_ms _ _ W)) as Q.
    rewrite (cw_ss _ _ W) in Q. unfold cell_of in Q. fold k in Q. lia. }
  rewrite (nth_error_nth' _ f0 K). cbn. f_equal. unfold read. rewrite slice_nth by (rewrite (cw_ss _ _ W); lia).
  f_equal. unfold cell_of. fold k. lia.
Qed.

(** the numbers written by [inner_update] *)
Definition iu (cfg : coin_config O) (avg u x : O) (st : list O) : list O :=
  match inner_update cfg avg u x st with Ok st' => st' | _ => st end.
Lemma iu_ok : forall cfg avg u x st, length st = 6%nat ->
  inner_update cfg avg u x st = Ok (iu cfg avg u x st) /\ length (iu cfg avg u x st) = 6%nat.
Proof.
  intros cfg avg u x st L. unfold iu, inner_update. rewrite L. cbn [Nat.eqb]. auto.
Qed.

Lemma updates : forall dbg cfg avg u l w, dw_wf w -> dw_ssize w = 6 -> 0 < dw_msize w ->
  (forall i v, In (i, v) l -> i < dw_fsize w) ->
  exists w', foldm (fun w iv => dw_state_upd dbg w (fst iv) 0 (inner_update cfg avg u (snd iv))) l w = Ok w' /\
    dw_wf w' /\ same_shape w' w /\
    forall i, i < dw_fsize w ->
      read w' i 0 = fold_left (fun st iv => if fst iv =? i then iu cfg avg u (snd iv) st else st) l (read w i 0).
Proof.
  intros dbg cfg avg u l. induction l as [|[i v] l IH]; intros w W S M B.
  - exists w. cbn. split; auto. split; auto. split; [repeat split|auto].
  - assert (Hi : i < dw_fsize w) by (apply (B i v); now left).
    destruct (read_ok dbg w i 0 W Hi M) as (E & L). rewrite S in L.
    destruct (iu_ok cfg avg u v (read w i 0) L) as (E1 & E2).
    cbn [foldm fst snd]. rewrite dw_upd_eq by auto. rewrite E. cbn [bind]. rewrite E1. cbn [bind].
    assert (L2 : length (iu cfg avg u v (read w i 0)) = N.to_nat (dw_ssize w)) by (rewrite S; exact E2).
    destruct (IH (dw_put w i 0 (iu cfg avg u v (read w i 0)))) as (w' & F & W' & S' & R); auto.
    { now apply dw_put_wf. }
    { intros j x Hj. cbn. apply (B j x). now right. }
    exists w'. split; auto. split; auto. split; [exact S'|].
    intros j Hj. rewrite R by (cbn; auto). cbn [fold_left fst snd]. rewrite read_put by auto.
    rewrite N.eqb_refl, andb_true_r. destruct (i =? j) eqn:Q; auto. apply N.eqb_eq in Q. subst. reflexivity.
Qed.

(** a fold over feature states only *)
Lemma fold_states : forall A dbg c (g : A -> O -> list O -> out A) l a, cwf dbg c ->
  (forall i v, In (i, v) l -> i < dw_fsize (co_w c)) ->
  (forall a x st, length st = 6%nat -> exists a', g a x st = Ok a') ->
  exists a', foldm (fun acc iv => let* st := dw_state_at dbg (co_w c) (fst iv) 0 in g acc (snd iv) st) l a = Ok a'.
Proof.
  intros A dbg c g l. induction l as [|[i v] l IH]; intros a W B G; cbn [foldm fst snd]; eauto.
  destruct (read6 dbg c i W) as (E & L); [apply (B i v); now left|].
  rewrite E. cbn [bind]. destruct (G a v _ L) as (a' & Ea). rewrite Ea. cbn [bind].
  apply IH; auto. intros j x Hj. apply (B j x). now right.
Qed.

Lemma dot_ok : forall dbg c l, cwf dbg c -> (forall i v, In (i, v) l -> i < dw_fsize (co_w c)) ->
  coin_dot dbg c l =
  Ok (fold_left (fun acc iv => f_add O acc (f_mul O (snd iv) (nth 0 (read (co_w c) (fst iv) 0) f0))) l f0).
Proof.
  intros dbg c l W. unfold coin_dot. generalize (@f0 O) at 1 3. 
  induction l as [|[i v] l IH]; intros a B; cbn [foldm fold_left fst snd]; auto.
  rewrite weight_ok; auto; [|apply (B i v); now left]. cbn [bind]. rewrite IH; auto.
  intros j x Hj. apply (B j x). now right.
Qed.

Lemma betting_ok : forall dbg c f wt, cwf dbg c -> below (dw_fsize (co_w c)) f ->
  f_leb O (co_min c) (co_max c) = true ->
  exists p st avg, coin_betting_predict dbg c f wt =
    Ok (p, mkCoin (co_w c) (co_cfg c) (upd 0 st (co_states c)) avg (co_min c) (co_max c)
                  (co_loss c) (co_pairs c) (co_triples c) (co_bits c) (co_const c)).
Proof.
  intros dbg c f wt W B R. unfold coin_betting_predict.
  destruct (feats_ok dbg c f W B) as (l & El & Bl). rewrite El. cbn [bind].
  destruct (fold_states _ dbg c (inner_predict (co_cfg c)) l (f0, f0) W Bl) as (pn & En).
  { intros a x st L. unfold inner_predict. rewrite L. cbn [Nat.eqb]. eauto. }
  rewrite En. cbn [bind]. pose proof (cw_states _ _ W) as K.
  destruct (co_states c) as [|ms ss] eqn:S; [congruence|]. cbn [nth_error opt_or bind].
  unfold f_clamp. rewrite R. cbn [bind]. do 3 eexists. reflexivity.
Qed.

(** a learn call: what is kept and what happens to the stored numbers *)
Lemma learn_ok : forall dbg c f y wt, cwf dbg c -> below (dw_fsize (co_w c)) f ->
  f_leb O (f_min y (co_min c)) (f_max y (co_max c)) = true ->
  exists c' l p cb u, coin_learn dbg c f y wt = Ok c' /\ cwf dbg c' /\
    coin_feats dbg c f = Ok l /\
    coin_betting_predict dbg (coin_range c y) f wt = Ok (p, cb) /\
    u = f_mul O (loss_d1 (co_loss c) (f_min y (co_min c)) (f_max y (co_max c)) p y) wt /\
    co_min c' = f_min y (co_min c) /\ co_max c' = f_max y (co_max c) /\
    co_cfg c' = co_cfg c /\ co_loss c' = co_loss c /\ co_pairs c' = co_pairs c /\
    co_triples c' = co_triples c /\ co_bits c' = co_bits c /\ co_const c' = co_const c /\
    same_shape (co_w c') (co_w c) /\
    forall i, i < dw_fsize (co_w c) ->
      read (co_w c') i 0 =
      fold_left (fun st iv => if fst iv =? i then iu (co_cfg c) (co_avg cb) u (snd iv) st else st) l
                (read (co_w c) i 0).
Proof.
  intros dbg c f y wt W B R. unfold coin_learn.
  assert (W1 : cwf dbg (coin_range c y)) by (destruct W; constructor; auto).
  destruct (betting_ok dbg (coin_range c y) f wt W1 B R) as (p & st & avg & E).
  rewrite E. cbn [bind fst snd]. unfold coin_update.
  cbn [co_w co_cfg co_states co_avg co_min co_max co_loss co_pairs co_triples co_bits co_const coin_range].
  set (u := f_mul O _ wt). 
  destruct (feats_ok dbg c f W B) as (l & El & Bl).
  unfold coin_feats in *. cbn [co_pairs co_triples co_bits co_const]. rewrite El. cbn [bind].
  destruct (updates dbg (co_cfg c) avg u l (co_w c) (cw_wf _ _ W) (cw_ss _ _ W) (cw_ms _ _ W) Bl)
    as (w' & Ew & W' & S' & Rd).
  rewrite Ew. cbn [bind]. eexists _, l, p, _, u. split; [reflexivity|].
  pose proof S' as SS. unfold same_shape in SS.
  cbn [co_w co_cfg co_states co_avg co_min co_max co_loss co_pairs co_triples co_bits co_const coin_range].
  split; [|auto 20].
  destruct SS as (S1 & S2 & S3 & _).
  constructor; cbn [co_w co_states co_bits]; auto.
  - rewrite S1. apply (cw_bits _ _ W).
  - rewrite S3. apply (cw_ss _ _ W).
  - rewrite S2. apply (cw_ms _ _ W).
  - pose proof (cw_states _ _ W). intros Q. apply (f_equal (@length _)) in Q.
    rewrite upd_length in Q. destruct (co_states c); [congruence|discriminate].
Qed.


Lemma fmin_or : forall a b : O, f_min a b = a /\ f_isnan O a = false \/ f_min a b = b.
Proof. intros a b. unfold f_min. destruct (f_isnan O a), (f_isnan O b), (f_ltb O b a); auto. Qed.
Lemma fmax_or : forall a b : O, f_max a b = a /\ f_isnan O a = false \/ f_max a b = b.
Proof. intros a b. unfold f_max. destruct (f_isnan O a), (f_isnan O b), (f_ltb O a b); auto. Qed.

Context (FO : ford O).

Lemma clamp_in : forall x lo hi q, f_isnan O x = false -> f_clamp x lo hi = Ok q ->
  f_isnan O q = false /\ f_leb O lo q = true /\ f_leb O q hi = true.
Proof.
  intros x lo hi q Nx H. unfold f_clamp in H. destruct (f_leb O lo hi) eqn:L; [|discriminate].
  destruct (fo_nan _ FO _ _ L) as (Nl & Nh).
  inversion H as [E]; clear H. subst q.
  destruct (f_ltb O x lo) eqn:A.
  - rewrite (fo_lt _ FO hi lo), L by auto. cbn [negb]. rewrite (fo_refl _ FO lo) by auto. auto.
  - rewrite (fo_lt _ FO x lo) in A by auto. apply negb_false_iff in A.
    destruct (f_ltb O hi x) eqn:B.
    + rewrite (fo_refl _ FO hi) by auto. auto.
    + rewrite (fo_lt _ FO hi x) in B by auto. apply negb_false_iff in B. auto.
Qed.

Lemma fmin_le : forall a b, f_isnan O b = false -> f_isnan O (f_min a b) = false /\ f_leb O (f_min a b) b = true.
Proof.
  intros a b Nb. unfold f_min. destruct (f_isnan O a) eqn:Na; [rewrite (fo_refl _ FO b); auto|].
  rewrite Nb. destruct (f_ltb O b a) eqn:L; [rewrite (fo_refl _ FO b); auto|].
  rewrite (fo_lt _ FO b a) in L by auto. apply negb_false_iff in L. auto.
Qed.
Lemma fmax_ge : forall a b, f_isnan O b = false -> f_isnan O (f_max a b) = false /\ f_leb O b (f_max a b) = true.
Proof.
  intros a b Nb. unfold f_max. destruct (f_isnan O a) eqn:Na; [rewrite (fo_refl _ FO b); auto|].
  rewrite Nb. destruct (f_ltb O a b) eqn:L; [rewrite (fo_refl _ FO b); auto|].
  rewrite (fo_lt _ FO a b) in L by auto. apply negb_false_iff in L. auto.
Qed.

Lemma range_step : forall c y, f_leb O (co_min c) (co_max c) = true ->
  f_leb O (f_min y (co_min c)) (f_max y (co_max c)) = true.
Proof.
  intros c y H. destruct (fo_nan _ FO _ _ H) as (Nl & Nh).
  apply (fo_trans _ FO _ (co_min c)); [now apply fmin_le|].
  apply (fo_trans _ FO _ (co_max c)); auto. now apply fmax_ge.
Qed.

(** what holds along a training run *)
Record cinv (dbg : bool) (c0 : coin O) (h : list (example O)) (c : coin O) : Prop := mkCinv {
  ci_wf : cwf dbg c;
  ci_shape : same_shape (co_w c) (co_w c0);
  ci_range : f_leb O (co_min c) (co_max c) = true;
  ci_min : In (co_min c) (co_min c0 :: map ex_y h);
  ci_max : In (co_max c) (co_max c0 :: map ex_y h);
  ci_cfg : co_cfg c = co_cfg c0;
  ci_loss : co_loss c = co_loss c0;
  ci_feats : forall f, coin_feats dbg c f = coin_feats dbg c0 f
}.

Lemma cinv_init : forall H dbg cfg gc nma c, coin_new H dbg cfg gc nma = Ok c -> 0 < nma < 2 ^ 8 ->
  cinv dbg c [] c.
Proof.
  intros H dbg cfg gc nma c E Hn. destruct (coin_new_wf _ _ _ _ _ _ E Hn) as (W & B & L & U & _).
  constructor; auto; [repeat split| |now left|now left].
  rewrite L, U. unfold lo0, hi0. destruct (fo_lits _ FO). destruct (cc_loss cfg); auto.
  now apply (fo_refl _ FO).
Qed.

Lemma same_shape_trans : forall a b c : dweights O, same_shape a b -> same_shape b c -> same_shape a c.
Proof. unfold same_shape. intros a b c (A1&A2&A3&A4&A5) (B1&B2&B3&B4&B5). repeat split; congruence. Qed.

Lemma cinv_step : forall dbg c0 h c e, cinv dbg c0 h c -> below (dw_fsize (co_w c0)) (ex_f e) ->
  exists c', coin_learn dbg c (ex_f e) (ex_y e) (ex_w e) = Ok c' /\ cinv dbg c0 (h ++ [e]) c'.
Proof.
  intros dbg c0 h c e I B. pose proof I as [W Sh R Mi Ma Cf Lo Fe].
  assert (B' : below (dw_fsize (co_w c)) (ex_f e)).
  { destruct Sh as (S1 & _). now rewrite S1. }
  destruct (learn_ok dbg c (ex_f e) (ex_y e) (ex_w e) W B' (range_step _ _ R))
    as (c' & l & p & cb & u & E & W' & El & Ep & Eu & M1 & M2 & C1 & C2 & C3 & C4 & C5 & C6 & S' & Rd).
  exists c'. split; auto. constructor; auto.
  - eapply same_shape_trans; eauto.
  - rewrite M1, M2. now apply range_step.
  - rewrite M1, map_app. cbn [map].
    destruct (fmin_or (ex_y e) (co_min c)) as [(Q & _)|Q]; rewrite Q.
    + right. apply in_app_iff. right. now left.
    + destruct Mi as [Mi|Mi]; [now left|right; apply in_app_iff; now left].
  - rewrite M2, map_app. cbn [map].
    destruct (fmax_or (ex_y e) (co_max c)) as [(Q & _)|Q]; rewrite Q.
    + right. apply in_app_iff. right. now left.
    + destruct Ma as [Ma|Ma]; [now left|right; apply in_app_iff; now left].
  - congruence.
  - congruence.
  - intros f. rewrite <- Fe. unfold coin_feats. congruence.
Qed.

Lemma train_app : forall dbg h k (c : coin O),
  train dbg (h ++ k) c = (let* c' := train dbg h c in train dbg k c').
Proof. intros. unfold train. apply foldm_app. Qed.

Lemma cinv_train : forall dbg c0 h, cinv dbg c0 [] c0 ->
  Forall (fun e => below (dw_fsize (co_w c0)) (ex_f e)) h ->
  exists c, train dbg h c0 = Ok c /\ cinv dbg c0 h c.
Proof.
  intros dbg c0 h I. induction h as [|e h IH] using rev_ind; intros B.
  - exists c0. auto.
  - apply Forall_app in B. destruct B as (B1 & B2). destruct (IH B1) as (c & E & Ic).
    inversion B2; subst. destruct (cinv_step dbg c0 h c e Ic) as (c' & E' & I'); auto.
    exists c'. split; auto. rewrite train_app, E. cbn [bind]. unfold train. cbn [foldm]. rewrite E'. reflexivity.
Qed.

Lemma predict_range : forall dbg c0 h c f, cinv dbg c0 h c -> below (dw_fsize (co_w c0)) f ->
  exists q raw, coin_predict dbg c f = Ok (PrScalar (link_fun (cc_link (co_cfg c0)) q) raw) /\
    f_isnan O raw = false /\ f_isnan O q = false /\
    f_leb O (co_min c) q = true /\ f_leb O q (co_max c) = true.
Proof.
  intros dbg c0 h c f [W Sh R Mi Ma Cf Lo Fe] B.
  assert (B' : below (dw_fsize (co_w c)) f).
  { destruct Sh as (S1 & _). now rewrite S1. }
  destruct (feats_ok dbg c f W B') as (l & El & Bl). unfold coin_predict. rewrite El. cbn [bind].
  rewrite dot_ok by auto. cbn [bind]. rewrite Cf.
  match goal with |- context [f_isnan O ?x] => set (d := x) end.
  set (r := if f_isnan O d then f0 else d).
  assert (Nr : f_isnan O r = false).
  { unfold r. destruct (f_isnan O d) eqn:Q; auto. apply (fo_lits _ FO). }
  destruct (f_clamp r (co_min c) (co_max c)) as [q| |] eqn:C.
  - exists q, r. cbn [bind]. destruct (clamp_in _ _ _ _ Nr C) as (? & ? & ?). auto.
  - unfold f_clamp in C. rewrite R in C. discriminate.
  - unfold f_clamp in C. rewrite R in C. discriminate.
Qed.

(** ** C18 *)
Lemma coin_range_main : forall H dbg cfg gc nma n (c0 : coin O) h f,
  coin_new H dbg cfg gc nma = Ok c0 -> 0 < nma < 2 ^ 8 ->
  bits_to_max_feature_index dbg (gc_bits gc) = Ok n ->
  Forall (fun e => below n (ex_f e)) h -> below n f ->
  exists c q raw, train dbg h c0 = Ok c /\
    coin_predict dbg c f = Ok (PrScalar (link_fun (cc_link cfg) q) raw) /\
    f_isnan O q = false /\ f_isnan O raw = false /\
    between q (lo0 cfg :: map ex_y h) (hi0 cfg :: map ex_y h).
Proof.
  intros H dbg cfg gc nma n c0 h f E Hn Hb Bh Bf.
  destruct (coin_new_wf _ _ _ _ _ _ E Hn) as (W & B & L & U & C & _).
  rewrite Hb in B. inversion B; subst n; clear B.
  destruct (cinv_train dbg c0 h (cinv_init _ _ _ _ _ _ E Hn) Bh) as (c & Et & I).
  destruct (predict_range dbg c0 h c f I Bf) as (q & raw & Ep & Nr & Nq & Q1 & Q2).
  exists c, q, raw. rewrite C in Ep. split; auto. split; auto. split; auto. split; auto.
  exists (co_min c), (co_max c). rewrite <- L, <- U.
  split; [apply (ci_min _ _ _ _ I)|]. split; [apply (ci_max _ _ _ _ I)|]. auto.
Qed.

Lemma identity_main : forall H dbg (cfg : coin_config O) gc nma n c0 h f,
  cc_link cfg = LinkIdentity -> cc_loss cfg = LossSquared ->
  coin_new H dbg cfg gc nma = Ok c0 -> 0 < nma < 2 ^ 8 ->
  bits_to_max_feature_index dbg (gc_bits gc) = Ok n ->
  Forall (fun e => below n (ex_f e)) h -> below n f ->
  exists c q raw, train dbg h c0 = Ok c /\ coin_predict dbg c f = Ok (PrScalar q raw) /\
    f_isnan O q = false /\ between q (f0 :: map ex_y h) (f0 :: map ex_y h).
Proof.
  intros H dbg cfg gc nma n c0 h f El Es E Hn Hb Bh Bf.
  destruct (coin_range_main H dbg cfg gc nma n c0 h f E Hn Hb Bh Bf) as (c & q & raw & A1 & A2 & A3 & _ & A4).
  rewrite El in A2. unfold lo0, hi0 in A4. rewrite Es in A4. exists c, q, raw. auto.
Qed.

(** ** C19 *)
Lemma fold_skip : forall A (g : A -> O -> A) l i a, (forall v, ~ In (i, v) l) ->
  fold_left (fun st (iv : N * O) => if fst iv =? i then g st (snd iv) else st) l a = a.
Proof.
  intros A g l i. induction l as [|[j v] l IH]; intros a H; cbn [fold_left fst snd]; auto.
  destruct (j =? i) eqn:Q.
  - apply N.eqb_eq in Q. subst. exfalso. apply (H v). now left.
  - apply IH. intros x Hx. apply (H x). now right.
Qed.

Lemma fold_ext_in : forall A (g k : A -> N * O -> A) l a, (forall a iv, In iv l -> g a iv = k a iv) ->
  fold_left g l a = fold_left k l a.
Proof.
  intros A g k l. induction l as [|x l IH]; intros a H; cbn [fold_left]; auto.
  rewrite H by now left. apply IH. intros; apply H. now right.
Qed.

Lemma learn_frame : forall dbg c0 h c e, cinv dbg c0 h c -> below (dw_fsize (co_w c0)) (ex_f e) ->
  exists c', coin_learn dbg c (ex_f e) (ex_y e) (ex_w e) = Ok c' /\
    (forall i, i < dw_fsize (co_w c0) -> ~ uses dbg c (ex_f e) i -> stored dbg c' i = stored dbg c i) /\
    (forall g p raw, below (dw_fsize (co_w c0)) g -> (forall i, uses dbg c g i -> ~ uses dbg c (ex_f e) i) ->
       coin_predict dbg c g = Ok (PrScalar p raw) -> exists p', coin_predict dbg c' g = Ok (PrScalar p' raw)).
Proof.
  intros dbg c0 h c e I B. pose proof I as [W Sh R Mi Ma Cf Lo Fe].
  assert (Fs : dw_fsize (co_w c) = dw_fsize (co_w c0)) by apply Sh.
  assert (B' : below (dw_fsize (co_w c)) (ex_f e)) by now rewrite Fs.
  destruct (learn_ok dbg c (ex_f e) (ex_y e) (ex_w e) W B' (range_step _ _ R))
    as (c' & l & p & cb & u & E & W' & El & Ep & Eu & M1 & M2 & C1 & C2 & C3 & C4 & C5 & C6 & S' & Rd).
  exists c'. split; auto.
  assert (Fs' : dw_fsize (co_w c') = dw_fsize (co_w c)) by apply S'.
  assert (K : forall i, i < dw_fsize (co_w c) -> ~ uses dbg c (ex_f e) i ->
              read (co_w c') i 0 = read (co_w c) i 0).
  { intros i Hi Nu. rewrite Rd by auto.
    apply (fold_skip _ (fun st v => iu (co_cfg c) (co_avg cb) u v st)).
    intros v Hv. apply Nu. exists l, v. auto. }
  split.
  - intros i Hi Nu. unfold stored.
    rewrite (proj1 (read6 dbg c' i W' ltac:(rewrite Fs', Fs; auto))).
    rewrite (proj1 (read6 dbg c i W ltac:(rewrite Fs; auto))).
    rewrite K; auto. now rewrite Fs.
  - intros g q raw Bg Nu Eg.
    assert (Bg1 : below (dw_fsize (co_w c)) g) by now rewrite Fs.
    assert (Bg2 : below (dw_fsize (co_w c')) g) by now rewrite Fs'.
    destruct (feats_ok dbg c g W Bg1) as (lg & Elg & Blg).
    assert (Elg' : coin_feats dbg c' g = Ok lg) by (unfold coin_feats in *; congruence).
    assert (Blg' : forall i v, In (i, v) lg -> i < dw_fsize (co_w c')) by now rewrite Fs'.
    unfold coin_predict in *. rewrite Elg in Eg. rewrite Elg'. cbn [bind] in *.
    rewrite dot_ok in * by auto. cbn [bind] in *.
    rewrite (fold_ext_in _ _ (fun acc iv => f_add O acc (f_mul O (snd iv) (nth 0 (read (co_w c) (fst iv) 0) f0)))).
    + set (d := fold_left _ lg f0) in *. apply bind_ok in Eg. destruct Eg as (qq & Q1 & Q2).
      inversion Q2; subst; clear Q2. unfold f_clamp at 1. rewrite M1, M2, (range_step _ _ R). cbn [bind]. eauto.
    + intros a [i v] Hin. cbn [fst snd]. rewrite K; auto; [now apply (Blg i v)|].
      apply Nu. exists lg, v. auto.
Qed.

Lemma learn_frame_main : forall H dbg cfg gc nma n (c0 : coin O) h e,
  coin_new H dbg cfg gc nma = Ok c0 -> 0 < nma < 2 ^ 8 ->
  bits_to_max_feature_index dbg (gc_bits gc) = Ok n ->
  Forall (fun e => below n (ex_f e)) h -> below n (ex_f e) ->
  exists c c' : coin O, train dbg h c0 = Ok c /\ coin_learn dbg c (ex_f e) (ex_y e) (ex_w e) = Ok c' /\
    (forall i, i < n -> ~ uses dbg c (ex_f e) i -> stored dbg c' i = stored dbg c i) /\
    (forall g, below n g -> (forall i, uses dbg c g i -> ~ uses dbg c (ex_f e) i) ->
       exists p p' raw : O, coin_predict dbg c g = Ok (PrScalar p raw) /\
                        coin_predict dbg c' g = Ok (PrScalar p' raw)).
Proof.
  intros H dbg cfg gc nma n c0 h e E Hn Hb Bh Bf.
  destruct (coin_new_wf _ _ _ _ _ _ E Hn) as (W & B & _).
  rewrite Hb in B. inversion B; subst n; clear B.
  destruct (cinv_train dbg c0 h (cinv_init _ _ _ _ _ _ E Hn) Bh) as (c & Et & I).
  destruct (learn_frame dbg c0 h c e I Bf) as (c' & E' & K1 & K2).
  exists c, c'. split; auto. split; auto. split; auto.
  intros g Bg Nu. destruct (predict_range dbg c0 h c g I Bg) as (q & raw & Ep & _).
  destruct (K2 g _ _ Bg Nu Ep) as (p' & Ep'). eauto.
Qed.

(** ** C20: the recorded maxima *)
Definition fge (a b : O) : Prop := f_leb O b a = true.

Lemma stored_read : forall dbg c i st, cwf dbg c -> i < dw_fsize (co_w c) ->
  stored dbg c i = Ok st -> st = read (co_w c) i 0.
Proof. intros dbg c i st W Hi E. unfold stored in E. rewrite (proj1 (read6 dbg c i W Hi)) in E. congruence. Qed.

Lemma iu_fields : forall cfg avg u x st, length st = 6%nat ->
  sg (iu cfg avg u x st) W_MX = (if f_gtb (f_abs O x) (sg st W_MX) then f_abs O x else sg st W_MX) /\
  sg (iu cfg avg u x st) W_MG =
    (if f_gtb (f_abs O u) (sg st W_MG)
     then (if f_gtb (f_abs O u) (cc_beta cfg) then f_abs O u else cc_beta cfg) else sg st W_MG) /\
  sg (iu cfg avg u x st) W_ZT = f_add O (sg st W_ZT) (f_neg O (f_mul O u x)) /\
  sg (iu cfg avg u x st) W_G2 = f_add O (sg st W_G2) (f_abs O (f_mul O u x)).
Proof.
  intros cfg avg u x st L. unfold iu, inner_update. rewrite L. cbn [Nat.eqb]. repeat split.
Qed.

Lemma gtb_le : forall a b, f_gtb a b = true -> f_leb O b a = true /\ f_isnan O a = false /\ f_isnan O b = false.
Proof.
  intros a b H. unfold f_gtb in H. destruct (fo_lt_nan _ FO _ _ H) as (N1 & N2).
  split; auto. rewrite (fo_lt _ FO) in H by auto. apply negb_true_iff in H.
  now apply (fo_total _ FO).
Qed.
Lemma gtb_ge : forall a b, f_isnan O a = false -> f_isnan O b = false -> f_gtb a b = false -> f_leb O a b = true.
Proof.
  intros a b Na Nb H. unfold f_gtb in H. rewrite (fo_lt _ FO) in H by auto. now apply negb_false_iff in H.
Qed.

(** the maxima of one state, kept non-NaN *)
Definition mok (st : list O) : Prop :=
  length st = 6%nat /\ f_isnan O (sg st W_MX) = false /\ f_isnan O (sg st W_MG) = false.
Definition mle (a b : list O) : Prop :=
  f_leb O (sg a W_MX) (sg b W_MX) = true /\ f_leb O (sg a W_MG) (sg b W_MG) = true.

Lemma mle_refl : forall a, mok a -> mle a a.
Proof. intros a (L & N1 & N2). split; now apply (fo_refl _ FO). Qed.
Lemma mle_trans : forall a b c, mle a b -> mle b c -> mle a c.
Proof. intros a b c (A1 & A2) (B1 & B2). split; eapply (fo_trans _ FO); eauto. Qed.

Lemma iu_mok : forall cfg avg u x st, f_isnan O (cc_beta cfg) = false -> mok st ->
  mok (iu cfg avg u x st) /\ mle st (iu cfg avg u x st) /\
  (f_isnan O (f_abs O x) = false -> f_leb O (f_abs O x) (sg (iu cfg avg u x st) W_MX) = true) /\
  (f_isnan O (f_abs O u) = false -> f_leb O (f_abs O u) (sg (iu cfg avg u x st) W_MG) = true).
Proof.
  intros cfg avg u x st Nb (L & N1 & N2).
  destruct (iu_fields cfg avg u x st L) as (F1 & F2 & _).
  unfold mok, mle. rewrite F1, F2.
  split; [split; [now apply iu_ok|]|split; [|split]].
  - split.
    + destruct (f_gtb (f_abs O x) (sg st W_MX)) eqn:G; auto. now apply gtb_le in G.
    + destruct (f_gtb (f_abs O u) (sg st W_MG)) eqn:G; auto.
      destruct (f_gtb (f_abs O u) (cc_beta cfg)) eqn:G'; auto. now apply gtb_le in G'.
  - split.
    + destruct (f_gtb (f_abs O x) (sg st W_MX)) eqn:G; [now apply gtb_le in G|now apply (fo_refl _ FO)].
    + destruct (f_gtb (f_abs O u) (sg st W_MG)) eqn:G; [|now apply (fo_refl _ FO)].
      destruct (gtb_le _ _ G) as (G1 & G2 & _).
      destruct (f_gtb (f_abs O u) (cc_beta cfg)) eqn:G'; auto.
      eapply (fo_trans _ FO); [exact G1|]. now apply gtb_ge.
  - intros Na. destruct (f_gtb (f_abs O x) (sg st W_MX)) eqn:G; [now apply (fo_refl _ FO)|].
    now apply gtb_ge.
  - intros Na. destruct (f_gtb (f_abs O u) (sg st W_MG)) eqn:G; [|now apply gtb_ge].
    destruct (f_gtb (f_abs O u) (cc_beta cfg)) eqn:G'; [now apply (fo_refl _ FO)|now apply gtb_ge].
Qed.

Lemma fold_mok : forall cfg avg u i l st, f_isnan O (cc_beta cfg) = false -> mok st ->
  let st' := fold_left (fun st (iv : N * O) => if fst iv =? i then iu cfg avg u (snd iv) st else st) l st in
  mok st' /\ mle st st' /\
  (forall v, In (i, v) l ->
     (f_isnan O (f_abs O v) = false -> f_leb O (f_abs O v) (sg st' W_MX) = true) /\
     (f_isnan O (f_abs O u) = false -> f_leb O (f_abs O u) (sg st' W_MG) = true)).
Proof.
  intros cfg avg u i l. induction l as [|[j v] l IH]; intros st Nb M; cbn [fold_left fst snd].
  - split; auto. split; [now apply mle_refl|]. intros v [].
  - destruct (j =? i) eqn:Q.
    + destruct (iu_mok cfg avg u v st Nb M) as (M1 & Le1 & X1 & U1).
      destruct (IH _ Nb M1) as (M2 & Le2 & K2). cbv zeta in *.
      split; auto. split; [eapply mle_trans; eauto|].
      intros x [Hx|Hx]; auto. inversion Hx; subst. destruct Le2 as (L1 & L2).
      split; intros; eapply (fo_trans _ FO); eauto.
    + destruct (IH st Nb M) as (M2 & Le2 & K2). cbv zeta in *. split; auto. split; auto.
      intros x [Hx|Hx]; auto. inversion Hx; subst. rewrite N.eqb_refl in Q. discriminate.
Qed.

Definition cmok (c : coin O) : Prop := forall i, i < dw_fsize (co_w c) -> mok (read (co_w c) i 0).

Lemma step_mok : forall dbg c0 h c e, cinv dbg c0 h c -> below (dw_fsize (co_w c0)) (ex_f e) ->
  f_isnan O (cc_beta (co_cfg c0)) = false -> cmok c ->
  exists c' l p cb, coin_learn dbg c (ex_f e) (ex_y e) (ex_w e) = Ok c' /\ cinv dbg c0 (h ++ [e]) c' /\
    coin_feats dbg c (ex_f e) = Ok l /\
    coin_betting_predict dbg (coin_range c (ex_y e)) (ex_f e) (ex_w e) = Ok (p, cb) /\
    cmok c' /\ (forall i, i < dw_fsize (co_w c) -> mle (read (co_w c) i 0) (read (co_w c') i 0)) /\
    forall i v, In (i, v) l ->
     (f_isnan O (f_abs O v) = false -> f_leb O (f_abs O v) (sg (read (co_w c') i 0) W_MX) = true) /\
     let u := f_mul O (loss_d1 (co_loss c) (co_min c') (co_max c') p (ex_y e)) (ex_w e) in
     (f_isnan O (f_abs O u) = false -> f_leb O (f_abs O u) (sg (read (co_w c') i 0) W_MG) = true).
Proof.
  intros dbg c0 h c e I B Nb M. pose proof I as [W Sh R Mi Ma Cf Lo Fe].
  assert (Fs : dw_fsize (co_w c) = dw_fsize (co_w c0)) by apply Sh.
  assert (B' : below (dw_fsize (co_w c)) (ex_f e)) by now rewrite Fs.
  destruct (learn_ok dbg c (ex_f e) (ex_y e) (ex_w e) W B' (range_step _ _ R))
    as (c' & l & p & cb & u & E & W' & El & Ep & Eu & M1 & M2 & C1 & C2 & C3 & C4 & C5 & C6 & S' & Rd).
  destruct (cinv_step dbg c0 h c e I B) as (c2 & E2 & I2). rewrite E in E2. inversion E2; subst c2.
  rewrite <- Cf in Nb.
  exists c', l, p, cb. split; auto. split; auto. split; auto. split; auto.
  assert (Fs' : dw_fsize (co_w c') = dw_fsize (co_w c)) by apply S'.
  split; [|split].
  - intros i Hi. rewrite Fs' in Hi. rewrite Rd by auto. now apply (fold_mok (co_cfg c) (co_avg cb) u i l _ Nb (M i Hi)).
  - intros i Hi. rewrite Rd by auto. now apply (fold_mok (co_cfg c) (co_avg cb) u i l _ Nb (M i Hi)).
  - intros i v Hin. destruct (feats_ok dbg c _ W B') as (l' & El' & Bl). rewrite El in El'. inversion El'; subst l'.
    assert (Hi : i < dw_fsize (co_w c)) by now apply (Bl i v).
    rewrite M1, M2, <- Eu. cbv zeta. rewrite Rd by auto.
    now apply (fold_mok (co_cfg c) (co_avg cb) u i l _ Nb (M i Hi)).
Qed.

Lemma train_mok : forall dbg c0 k h c, cinv dbg c0 h c ->
  Forall (fun e => below (dw_fsize (co_w c0)) (ex_f e)) k ->
  f_isnan O (cc_beta (co_cfg c0)) = false -> cmok c ->
  exists c', train dbg k c = Ok c' /\ cinv dbg c0 (h ++ k) c' /\ cmok c' /\
    (forall i, i < dw_fsize (co_w c) -> mle (read (co_w c) i 0) (read (co_w c') i 0)) /\
    forall e l i v, In e k -> coin_feats dbg c0 (ex_f e) = Ok l -> In (i, v) l ->
      f_isnan O (f_abs O v) = false -> f_leb O (f_abs O v) (sg (read (co_w c') i 0) W_MX) = true.
Proof.
  intros dbg c0 k. induction k as [|e k IH]; intros h c I B Nb M.
  - exists c. rewrite app_nil_r. split; [reflexivity|]. split; auto. split; auto.
    split; [|intros e l i v []]. intros i Hi. apply mle_refl. auto.
  - inversion B as [|? ? B1 B2]; subst.
    destruct (step_mok dbg c0 h c e I B1 Nb M) as (c1 & l & p & cb & E & I1 & El & _ & M1 & Le & Bd).
    destruct (IH (h ++ [e]) c1 I1 B2 Nb M1) as (c' & E' & I' & M' & Le' & Bd').
    rewrite <- app_assoc in I'. exists c'. split; [unfold train; cbn [foldm]; rewrite E; exact E'|].
    split; auto. split; auto.
    assert (Fs : dw_fsize (co_w c1) = dw_fsize (co_w c)).
    { transitivity (dw_fsize (co_w c0)); [apply I1|symmetry; apply I]. }
    split.
    + intros i Hi. eapply mle_trans; [now apply Le|]. apply Le'. now rewrite Fs.
    + intros e' l' i v [He|He] El' Hin Nv; [|eapply Bd'; eauto]. subst e'.
      rewrite <- (ci_feats _ _ _ _ I) in El'. rewrite El in El'. inversion El'; subst l'.
      assert (Hi : i < dw_fsize (co_w c)).
      { assert (B' : below (dw_fsize (co_w c)) (ex_f e)).
        { replace (dw_fsize (co_w c)) with (dw_fsize (co_w c0)); auto. symmetry. apply I. }
        destruct (feats_ok dbg c _ (ci_wf _ _ _ _ I) B') as (l2 & E2 & Bl). rewrite El in E2.
        inversion E2; subst l2. now apply (Bl i v). }
      destruct (Bd i v Hin) as (Q & _). eapply (fo_trans _ FO); [now apply Q|].
      apply Le'. now rewrite Fs.
Qed.

Lemma cmok_init : forall H dbg cfg gc nma c, coin_new H dbg cfg gc nma = Ok c -> 0 < nma < 2 ^ 8 -> cmok c.
Proof.
  intros H dbg cfg gc nma c E Hn. destruct (coin_new_wf _ _ _ _ _ _ E Hn) as (W & _ & _ & _ & _ & _ & Z).
  intros i Hi. rewrite (read_zeros _ _ _ (cw_wf _ _ W) Hi (cw_ms _ _ W) Z), (cw_ss _ _ W).
  pose proof (proj1 (fo_lits _ FO)). repeat split; auto.
Qed.

Lemma maxima_main : forall H dbg cfg gc nma n (c0 : coin O) h k,
  coin_new H dbg cfg gc nma = Ok c0 -> 0 < nma < 2 ^ 8 ->
  bits_to_max_feature_index dbg (gc_bits gc) = Ok n ->
  f_isnan O (cc_beta cfg) = false ->
  Forall (fun e => below n (ex_f e)) h -> Forall (fun e => below n (ex_f e)) k ->
  exists c c' : coin O, train dbg h c0 = Ok c /\ train dbg k c = Ok c' /\
    forall i, i < n -> exists st st', stored dbg c i = Ok st /\ stored dbg c' i = Ok st' /\
      (f_leb O (sg st W_MX) (sg st' W_MX) = true) /\ (f_leb O (sg st W_MG) (sg st' W_MG) = true) /\
      (forall e l v, In e k -> coin_feats dbg c0 (ex_f e) = Ok l -> In (i, v) l ->
         f_isnan O (f_abs O v) = false -> f_leb O (f_abs O v) (sg st' W_MX) = true).
Proof.
  intros H dbg cfg gc nma n c0 h k E Hn Hb Nb Bh Bk.
  destruct (coin_new_wf _ _ _ _ _ _ E Hn) as (W & B & _ & _ & C & _).
  rewrite Hb in B. inversion B; subst n; clear B. rewrite <- C in Nb.
  pose proof (cinv_init _ _ _ _ _ _ E Hn) as I0.
  destruct (train_mok dbg c0 h [] c0 I0 Bh Nb (cmok_init _ _ _ _ _ _ E Hn)) as (c & Et & I & M & _).
  destruct (train_mok dbg c0 k _ c I Bk Nb M) as (c' & Et' & I' & M' & Le & Bd).
  exists c, c'. split; auto. split; auto. intros i Hi.
  assert (Hc : i < dw_fsize (co_w c)) by (replace (dw_fsize (co_w c)) with (dw_fsize (co_w c0)); auto; symmetry; apply I).
  assert (Hc' : i < dw_fsize (co_w c')) by (replace (dw_fsize (co_w c')) with (dw_fsize (co_w c0)); auto; symmetry; apply I').
  exists (read (co_w c) i 0), (read (co_w c') i 0).
  split; [apply (proj1 (read6 dbg c i (ci_wf _ _ _ _ I) Hc))|].
  split; [apply (proj1 (read6 dbg c' i (ci_wf _ _ _ _ I') Hc'))|].
  destruct (Le i Hc) as (L1 & L2). split; auto. split; auto. intros. eapply Bd; eauto.
Qed.

(** the gradient of one learn call, from the betting prediction *)
Lemma gradient_main : forall H dbg cfg gc nma n (c0 : coin O) h e,
  coin_new H dbg cfg gc nma = Ok c0 -> 0 < nma < 2 ^ 8 ->
  bits_to_max_feature_index dbg (gc_bits gc) = Ok n ->
  f_isnan O (cc_beta cfg) = false ->
  Forall (fun e => below n (ex_f e)) h -> below n (ex_f e) ->
  exists c c' l p cb, train dbg h c0 = Ok c /\ coin_learn dbg c (ex_f e) (ex_y e) (ex_w e) = Ok c' /\
    coin_feats dbg c (ex_f e) = Ok l /\
    coin_betting_predict dbg (coin_range c (ex_y e)) (ex_f e) (ex_w e) = Ok (p, cb) /\
    let g := f_mul O (sq_d1 (co_min c') (co_max c') p (ex_y e)) (ex_w e) in
    forall i v, In (i, v) l -> exists st', stored dbg c' i = Ok st' /\
      (f_isnan O (f_abs O g) = false -> f_leb O (f_abs O g) (sg st' W_MG) = true).
Proof.
  intros H dbg cfg gc nma n c0 h e E Hn Hb Nb Bh Be.
  destruct (coin_new_wf _ _ _ _ _ _ E Hn) as (W & B & _ & _ & C & Ls & _).
  rewrite Hb in B. inversion B; subst n; clear B. rewrite <- C in Nb.
  pose proof (cinv_init _ _ _ _ _ _ E Hn) as I0.
  destruct (train_mok dbg c0 h [] c0 I0 Bh Nb (cmok_init _ _ _ _ _ _ E Hn)) as (c & Et & I & M & _).
  destruct (step_mok dbg c0 _ c e I Be Nb M) as (c' & l & p & cb & E' & I' & El & Ep & M' & Le & Bd).
  exists c, c', l, p, cb. split; auto. split; auto. split; auto. split; auto.
  intros g i v Hin. exists (read (co_w c') i 0).
  assert (Hi : i < dw_fsize (co_w c')).
  { assert (B' : below (dw_fsize (co_w c)) (ex_f e)).
    { replace (dw_fsize (co_w c)) with (dw_fsize (co_w c0)); auto. symmetry. apply I. }
    destruct (feats_ok dbg c _ (ci_wf _ _ _ _ I) B') as (l2 & E2 & Bl). rewrite El in E2.
    inversion E2; subst l2. replace (dw_fsize (co_w c')) with (dw_fsize (co_w c)); [now apply (Bl i v)|].
    transitivity (dw_fsize (co_w c0)); [apply I|symmetry; apply I']. }
  split; [apply (proj1 (read6 dbg c' i (ci_wf _ _ _ _ I') Hi))|].
  destruct (Bd i v Hin) as (_ & Q). rewrite (ci_loss _ _ _ _ I), Ls in Q. exact Q.
Qed.

(** ** C46: the gradient added to the sum is the one of the squared loss *)
Lemma fold_once : forall A (g : A -> O -> A) l1 l2 i v a, (forall x, ~ In (i, x) (l1 ++ l2)) ->
  fold_left (fun st (iv : N * O) => if fst iv =? i then g st (snd iv) else st) (l1 ++ (i, v) :: l2) a = g a v.
Proof.
  intros A g l1 l2 i v a H. rewrite fold_left_app. cbn [fold_left fst snd]. rewrite N.eqb_refl.
  rewrite (fold_skip _ g l2), (fold_skip _ g l1); auto; intros x Hx; apply (H x); apply in_app_iff; auto.
Qed.

Lemma squared_main : forall H dbg cfg gc nma n (c0 : coin O) h e,
  coin_new H dbg cfg gc nma = Ok c0 -> 0 < nma < 2 ^ 8 ->
  bits_to_max_feature_index dbg (gc_bits gc) = Ok n ->
  Forall (fun e => below n (ex_f e)) h -> below n (ex_f e) ->
  exists c c' l p cb, train dbg h c0 = Ok c /\ coin_learn dbg c (ex_f e) (ex_y e) (ex_w e) = Ok c' /\
    coin_feats dbg c (ex_f e) = Ok l /\
    coin_betting_predict dbg (coin_range c (ex_y e)) (ex_f e) (ex_w e) = Ok (p, cb) /\
    forall l1 i v l2, l = l1 ++ (i, v) :: l2 -> (forall x, ~ In (i, x) (l1 ++ l2)) ->
      exists st st', stored dbg c i = Ok st /\ stored dbg c' i = Ok st' /\
        let g := f_mul O (f_mul O (sq_d1 (co_min c') (co_max c') p (ex_y e)) (ex_w e)) v in
        sg st' W_ZT = f_add O (sg st W_ZT) (f_neg O g) /\
        sg st' W_G2 = f_add O (sg st W_G2) (f_abs O g).
Proof.
  intros H dbg cfg gc nma n c0 h e E Hn Hb Bh Be.
  destruct (coin_new_wf _ _ _ _ _ _ E Hn) as (W0 & B & _ & _ & C & Ls & _).
  rewrite Hb in B. inversion B; subst n; clear B.
  pose proof (cinv_init _ _ _ _ _ _ E Hn) as I0.
  destruct (cinv_train dbg c0 h I0 Bh) as (c & Et & I).
  pose proof I as [W Sh R Mi Ma Cf Lo Fe].
  assert (Fs : dw_fsize (co_w c) = dw_fsize (co_w c0)) by apply Sh.
  assert (B' : below (dw_fsize (co_w c)) (ex_f e)) by now rewrite Fs.
  destruct (learn_ok dbg c (ex_f e) (ex_y e) (ex_w e) W B' (range_step _ _ R))
    as (c' & l & p & cb & u & E' & W' & El & Ep & Eu & M1 & M2 & C1 & C2 & C3 & C4 & C5 & C6 & S' & Rd).
  exists c, c', l, p, cb. split; auto. split; auto. split; auto. split; auto.
  intros l1 i v l2 El2 Nin.
  assert (Hi : i < dw_fsize (co_w c)).
  { destruct (feats_ok dbg c _ W B') as (l' & El' & Bl). rewrite El in El'. inversion El'; subst l'.
    apply (Bl i v). rewrite El2. apply in_app_iff. right. now left. }
  assert (Hi' : i < dw_fsize (co_w c')) by (replace (dw_fsize (co_w c')) with (dw_fsize (co_w c)); auto; symmetry; apply S').
  destruct (read6 dbg c i W Hi) as (Q1 & Q2). destruct (read6 dbg c' i W' Hi') as (Q1' & Q2').
  exists (read (co_w c) i 0), (read (co_w c') i 0). split; auto. split; auto.
  rewrite Rd by auto. subst l. rewrite (fold_once _ (fun st v => iu (co_cfg c) (co_avg cb) u v st)) by auto.
  destruct (iu_fields (co_cfg c) (co_avg cb) u v _ Q2) as (_ & _ & F3 & F4).
  rewrite F3, F4, Eu, M1, M2. rewrite Lo, Ls. auto.
Qed.

End Coin.
