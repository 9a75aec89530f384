(** C44: a saved and loaded workspace behaves like the original. *)
From Coq Require Import List NArith ZArith Bool Lia.
From Coq Require Import Floats.SpecFloat.
From Verif Require Import Base FloatOps FloatB32 Model_Hash Model_Features Model_Types Model_Interactions Model_Weights
  Model_Loss Model_Coin Model_Stack Model_Factory Model_Save Spec_Stack Spec_Reductions Spec_Weights Spec_Save
  Proof_Weights Proof_WeightsProps Proof_StackRestore Proof_StackShape Proof_StackProps Proof_StackRel Proof_FloatZero.
Import ListNotations.
Open Scope N_scope.

Section Save.
Context {O : FOps}.
(** Which values may stand for each other in the first place of a state, what the sum of
    a prediction can be, and what the values in the places of a state can be. *)
Context (Zr : O -> O -> Prop) (Pa : O -> Prop) (Q : nat -> O -> Prop).
Context (H1 : Pa f0).
Context (H2 : forall a v x x', Pa a -> Zr x x' -> f_add O a (f_mul O v x) = f_add O a (f_mul O v x') /\ Pa (f_add O a (f_mul O v x))).
Context (H3 : forall k, Q k f0).
Context (H4 : forall cfg avg u x st st', inner_update (O := O) cfg avg u x st = Ok st' ->
  (forall k, (k < 6)%nat -> Q k (sg st k)) -> forall k, (k < 6)%nat -> Q k (sg st' k)).
Context (H5 : forall x y : O, zero_same x y -> Zr x y).
Context (H6 : forall k x y, k <> 0%nat -> Q k x -> zero_same x y -> y = x).
Context (H7 : f_eqb O f0 f0 = true).

(** *** tables *)
Definition tinv (w : dweights O) : Prop :=
  dw_sshift w = 3 /\ dw_ssize w = 6 /\ 4 * N.of_nat (length (dw_w w)) < 9223372036854775808 /\
  forall j, Q (j mod 8)%nat (nth j (dw_w w) f0).

Definition trel (w w' : dweights O) : Prop :=
  dw_sshift w = 3 /\ dw_ssize w = 6 /\
  dw_fsize w' = dw_fsize w /\ dw_msize w' = dw_msize w /\ dw_ssize w' = dw_ssize w /\
  dw_mshift w' = dw_mshift w /\ dw_sshift w' = dw_sshift w /\ length (dw_w w') = length (dw_w w) /\
  (forall j, (j < length (dw_w w))%nat -> Zr (nth j (dw_w w) f0) (nth j (dw_w w') f0)) /\
  (forall j, (j mod 8 <> 0)%nat -> nth j (dw_w w') f0 = nth j (dw_w w) f0).

Definition crel (c c' : coin O) : Prop := trel (co_w c) (co_w c') /\ with_list c' [] = with_list c [].

Lemma index_base : forall dbg w fi i, dw_sshift w = 3 -> dw_index (O := O) dbg w fi 0 = Ok i ->
  exists q, N.to_nat i = (8 * q)%nat.
Proof.
  intros dbg w fi i S E. unfold dw_index in E. destruct (dbg && _); [discriminate|]. assert (Ei : i = N.shiftl fi (dw_mshift w + dw_sshift w) + N.shiftl 0 (dw_sshift w)) by congruence. rewrite Ei, S.
  exists (N.to_nat (N.shiftl fi (dw_mshift w))). rewrite N.shiftl_0_l, N.add_0_r, <- N.shiftl_shiftl, (N.shiftl_mul_pow2 _ 3).
  change (2 ^ 3) with 8. lia.
Qed.

Lemma mod8 : forall q k, (k < 8)%nat -> ((8 * q + k) mod 8 = k)%nat.
Proof. intros q k H. rewrite Nat.mul_comm, Nat.add_comm, Nat.mod_add by lia. now apply Nat.mod_small. Qed.

Lemma trel_index : forall dbg w w' fi, trel w w' -> dw_index dbg w' fi 0 = dw_index dbg w fi 0.
Proof. intros dbg w w' fi (A & B & C & D & E & F & G & _). unfold dw_index. now rewrite C, D, F, G. Qed.

(** states agree except in the first place *)
Definition strel (st st' : list O) : Prop :=
  length st' = length st /\ forall k, (0 < k < 6)%nat -> sg st' k = sg st k.

Lemma trel_state : forall dbg w w' fi, trel w w' ->
  orel strel (dw_state_at dbg w fi 0) (dw_state_at dbg w' fi 0).
Proof.
  intros dbg w w' fi R. unfold dw_state_at. rewrite (trel_index dbg w w' fi R).
  destruct (dw_index dbg w fi 0) as [i| |] eqn:E; cbn [bind]; try constructor.
  destruct R as (A & B & C & D & S & F & G & L & Z & V).
  destruct (index_base _ _ _ _ A E) as (q & Hq).
  unfold slice. rewrite L, S. destruct (Nat.leb _ _) eqn:Le; constructor.
  apply Nat.leb_le in Le. rewrite B in *. change (N.to_nat 6) with 6%nat in *. split.
  - rewrite !firstn_length, !skipn_length. lia.
  - intros k Hk. unfold sg. rewrite !slice_nth by lia. apply V. rewrite Hq, mod8; lia.
Qed.

Lemma predict_step : forall cfg acc x st st', strel st st' ->
  inner_predict cfg acc x st' = inner_predict (O := O) cfg acc x st.
Proof.
  intros cfg acc x st st' (L & S). unfold inner_predict. rewrite L.
  unfold W_MX, W_MG, W_WE, W_G2, W_ZT. rewrite !S by lia. reflexivity.
Qed.
Lemma sens_step : forall cfg acc x st st', strel st st' ->
  inner_sensitivity cfg acc x st' = inner_sensitivity (O := O) cfg acc x st.
Proof. intros cfg acc x st st' (L & S). unfold inner_sensitivity. rewrite L. unfold W_G2. rewrite !S by lia. reflexivity. Qed.
Lemma update_step : forall cfg avg u x st st', strel st st' ->
  inner_update cfg avg u x st' = inner_update (O := O) cfg avg u x st.
Proof.
  intros cfg avg u x st st' (L & S). unfold inner_update. rewrite L.
  unfold W_MX, W_MG, W_WE, W_G2, W_ZT. rewrite !S by lia. reflexivity.
Qed.

Lemma inner_update_length : forall cfg avg u x (st st' : list O), inner_update cfg avg u x st = Ok st' ->
  length st = 6%nat /\ length st' = 6%nat.
Proof.
  intros cfg avg u x st st' E. unfold inner_update in E. destruct (Nat.eqb (length st) 6) eqn:L; [|discriminate].
  apply Nat.eqb_eq in L. inversion E; auto.
Qed.

Lemma trel_upd : forall dbg w w' fi cfg avg u x, trel w w' ->
  orel trel (dw_state_upd dbg w fi 0 (inner_update cfg avg u x)) (dw_state_upd dbg w' fi 0 (inner_update cfg avg u x)).
Proof.
  intros dbg w w' fi cfg avg u x R. pose proof (trel_state dbg w w' fi R) as St. unfold dw_state_at in St.
  unfold dw_state_upd. rewrite (trel_index dbg w w' fi R) in *.
  destruct (dw_index dbg w fi 0) as [i| |] eqn:E; cbn [bind] in *; try constructor.
  destruct (slice (N.to_nat i) (N.to_nat (dw_ssize w)) (dw_w w)) as [st| |] eqn:E1;
  destruct (slice (N.to_nat i) (N.to_nat (dw_ssize w')) (dw_w w')) as [st'| |] eqn:E2; inversion St; subst; cbn [bind]; try constructor.
  rewrite (update_step cfg avg u x st st') by assumption.
  destruct (inner_update cfg avg u x st) as [s1| |] eqn:U; cbn [bind]; constructor.
  destruct (inner_update_length _ _ _ _ _ _ U) as (L1 & L2).
  destruct R as (A & B & C & D & S & F & G & L & Z & V).
  apply slice_inv in E1. apply slice_inv in E2. destruct E1 as (B1 & _ & K1), E2 as (B2 & _ & K2).
  unfold trel; cbn [dw_w dw_fsize dw_msize dw_ssize dw_mshift dw_sshift].
  repeat (split; [first [assumption|rewrite !write_slice_length by lia; assumption]|]). split.
  - intros j Hj. rewrite write_slice_length in Hj by lia. rewrite !write_slice_nth by lia.
    destruct (_ && _)%bool; [apply H5; left; reflexivity|auto].
  - intros j Hj. rewrite !write_slice_nth by lia. destruct (_ && _)%bool; auto.
Qed.

(** *** the regressor *)
Lemma crel_fields : forall c c', crel c c' ->
  co_cfg c' = co_cfg c /\ co_states c' = co_states c /\ co_avg c' = co_avg c /\ co_min c' = co_min c /\ co_max c' = co_max c /\
  co_loss c' = co_loss c /\ co_pairs c' = co_pairs c /\ co_triples c' = co_triples c /\ co_bits c' = co_bits c /\ co_const c' = co_const c.
Proof. intros c c' (_ & E). unfold with_list in E. inversion E. auto 20. Qed.

Lemma crel_build : forall w w' cfg ss av mn mx ls ps ts bs k, trel w w' ->
  crel (mkCoin w cfg ss av mn mx ls ps ts bs k) (mkCoin w' cfg ss av mn mx ls ps ts bs k).
Proof.
  intros w w' cfg ss av mn mx ls ps ts bs k R. split; [exact R|].
  destruct R as (A & B & C & D & S & F & G & _). unfold with_list; cbn [co_w co_cfg co_states co_avg co_min co_max co_loss co_pairs co_triples co_bits co_const].
  now rewrite C, D, S, F, G.
Qed.

Lemma feats_rel : forall dbg c c' f, crel c c' -> coin_feats dbg c' f = coin_feats dbg c f.
Proof.
  intros dbg c c' f R. apply crel_fields in R. destruct R as (_ & _ & _ & _ & _ & _ & P1 & P2 & P3 & P4).
  unfold coin_feats. now rewrite P1, P2, P3, P4.
Qed.

Lemma dot_rel : forall dbg c c' l a, trel (co_w c) (co_w c') -> Pa a ->
  foldm (fun acc iv => let* w := dw_weight_at dbg (co_w c') (fst iv) 0 in Ok (f_add O acc (f_mul O (snd iv) w))) l a =
  foldm (fun acc iv => let* w := dw_weight_at dbg (co_w c) (fst iv) 0 in Ok (f_add O acc (f_mul O (snd iv) w))) l a.
Proof.
  intros dbg c c' l a R. revert a. induction l as [|iv l IH]; intros a Ha; [reflexivity|]. cbn [foldm].
  unfold dw_weight_at at 1 3. rewrite (trel_index dbg _ _ (fst iv) R).
  destruct (dw_index dbg (co_w c) (fst iv) 0) as [i| |] eqn:E; cbn [bind]; auto.
  destruct (nth_error (dw_w (co_w c)) (N.to_nat i)) as [x|] eqn:N1.
  - assert (Li : (N.to_nat i < length (dw_w (co_w c)))%nat) by (apply nth_error_Some; congruence).
    destruct R as (A & B & C & D & S & F & G & L & Zz & V).
    destruct (nth_error (dw_w (co_w c')) (N.to_nat i)) as [x'|] eqn:N2;
      [|apply nth_error_None in N2; lia].
    apply nth_error_nth with (d := f0) in N1. apply nth_error_nth with (d := f0) in N2.
    pose proof (Zz _ Li) as Zx. rewrite N1, N2 in Zx. cbn [opt_or bind].
    destruct (H2 a (snd iv) x x' Ha Zx) as (E1 & E2). rewrite <- E1. apply IH; auto.
  - destruct R as (A & B & C & D & S & F & G & L & Zz & V).
    apply nth_error_None in N1. rewrite (proj2 (nth_error_None (dw_w (co_w c')) (N.to_nat i))) by lia. reflexivity.
Qed.

Lemma predict_coin : forall dbg c c' f, crel c c' -> coin_predict dbg c f = coin_predict dbg c' f.
Proof.
  intros dbg c c' f R. unfold coin_predict. rewrite (feats_rel dbg c c' f R).
  destruct (crel_fields _ _ R) as (P1 & P2 & P3 & P4 & P5 & P6 & P7 & P8 & P9 & P10). rewrite P1, P4, P5.
  destruct (coin_feats dbg c f); cbn [bind]; auto. unfold coin_dot. rewrite (dot_rel dbg c c'); auto. apply R.
Qed.

Lemma sens_coin : forall dbg c c' f, crel c c' -> coin_sensitivity dbg c f = coin_sensitivity dbg c' f.
Proof.
  intros dbg c c' f R. unfold coin_sensitivity. rewrite (feats_rel dbg c c' f R).
  destruct (crel_fields _ _ R) as (P1 & P2 & P3 & P4 & P5 & P6 & P7 & P8 & P9 & P10). rewrite P1.
  destruct (coin_feats dbg c f) as [l| |]; cbn [bind]; auto.
  apply orel_eq. apply orel_foldm; [reflexivity|]. intros a ? ? _ ->.
  eapply orel_bind; [apply trel_state, R|]. intros st st' S. rewrite (sens_step _ _ _ _ _ S). apply orel_refl. reflexivity.
Qed.

Lemma learn_coin : forall dbg c c' f v w, crel c c' -> orel crel (coin_learn dbg c f v w) (coin_learn dbg c' f v w).
Proof.
  intros dbg c c' f v w R. unfold coin_learn, coin_betting_predict.
  assert (RR : crel (coin_range c v) (coin_range c' v)).
  { destruct (crel_fields _ _ R) as (P1 & P2 & P3 & P4 & P5 & P6 & P7 & P8 & P9 & P10).
    unfold coin_range. rewrite P1, P2, P3, P4, P5, P6, P7, P8, P9, P10. apply crel_build. apply R. }
  generalize dependent (coin_range c' v). generalize (coin_range c v). clear c c' R. intros c c' R.
  rewrite (feats_rel dbg c c' f R).
  destruct (crel_fields _ _ R) as (P1 & P2 & P3 & P4 & P5 & P6 & P7 & P8 & P9 & P10).
  destruct (coin_feats dbg c f) as [l| |] eqn:Ef; cbn [bind]; try constructor.
  assert (E : foldm (fun acc iv => let* st := dw_state_at dbg (co_w c') (fst iv) 0 in inner_predict (co_cfg c') acc (snd iv) st) l (f0, f0)
            = foldm (fun acc iv => let* st := dw_state_at dbg (co_w c) (fst iv) 0 in inner_predict (co_cfg c) acc (snd iv) st) l (f0, f0)).
  { symmetry. apply orel_eq. apply orel_foldm; [reflexivity|]. intros a ? ? _ ->. rewrite P1.
    eapply orel_bind; [apply trel_state, R|]. intros st st' S. rewrite (predict_step _ _ _ _ _ S). apply orel_refl. reflexivity. }
  rewrite E. clear E. destruct (foldm _ l (f0, f0)) as [pn| |]; cbn [bind]; try constructor.
  rewrite P2. destruct (nth_error (co_states c) 0) as [ms|]; cbn [opt_or bind]; try constructor.
  rewrite P4, P5. destruct (f_clamp _ (co_min c) (co_max c)) as [q| |]; cbn [bind]; try constructor.
  unfold coin_update; cbn [fst snd co_loss co_min co_max co_cfg co_avg co_w co_states co_pairs co_triples co_bits co_const].
  unfold coin_feats in *. cbn [co_pairs co_triples co_bits co_const]. rewrite P7, P8, P9, P10, Ef. cbn [bind].
  rewrite P6, P1. eapply orel_bind.
  - apply orel_foldm with (R := trel); [apply R|]. intros a b1 b2 _ Hb. apply trel_upd. exact Hb.
  - intros w1 w2 Hw. constructor. now apply crel_build.
Qed.

(** *** the invariant *)
Lemma tinv_upd : forall dbg w fi cfg avg u x w', tinv w ->
  dw_state_upd dbg w fi 0 (inner_update cfg avg u x) = Ok w' -> tinv w'.
Proof.
  intros dbg w fi cfg avg u x w' (A & B & L & I) E. unfold dw_state_upd in E. binv E. binv E. binv E. inversion E; subst; clear E.
  destruct (index_base _ _ _ _ A B0) as (q & Hq). apply slice_inv in B1. destruct B1 as (Bd & Es & Ls).
  destruct (inner_update_length _ _ _ _ _ _ B2) as (L1 & L2).
  unfold tinv; cbn [dw_w dw_fsize dw_msize dw_ssize dw_mshift dw_sshift].
  rewrite write_slice_length by lia. repeat (split; [assumption|]).
  intros j. rewrite write_slice_nth by lia. destruct (_ && _)%bool eqn:J; [|apply I].
  apply andb_true_iff in J. destruct J as (J1 & J2). apply Nat.leb_le in J1. apply Nat.ltb_lt in J2.
  set (k := (j - N.to_nat v)%nat). assert (Ej : j = (8 * q + k)%nat) by (unfold k; lia). assert (Hk : (k < 6)%nat) by (unfold k; lia).
  rewrite Ej at 1. rewrite mod8 by lia. change (nth k v1 f0) with (sg v1 k). revert k Ej Hk. clear J1 J2.
  intros k Ej Hk. refine (H4 _ _ _ _ _ _ B2 _ k Hk).
  intros k' Hk'. unfold sg. rewrite Es, slice_nth by (rewrite B; change (N.to_nat 6) with 6%nat; lia).
  specialize (I (N.to_nat v + k')%nat). rewrite Hq, mod8 in I by lia. rewrite Hq. exact I.
Qed.

Lemma tinv_learn : forall dbg (c : coin O) f v w c', tinv (co_w c) -> coin_learn dbg c f v w = Ok c' -> tinv (co_w c').
Proof.
  intros dbg c f v w c' I E. unfold coin_learn in E. binv E. unfold coin_betting_predict in B. binv B. binv B. binv B. binv B.
  inversion B; subst; clear B. cbn [fst snd] in E. unfold coin_update in E. binv E. binv E. inversion E; subst.
  cbn [co_w] in *. revert B4. apply foldm_inv; [exact I|].
  intros a b w1 _ Hb Hu. eapply tinv_upd; eauto.
Qed.

Lemma coin_new_table : forall H dbg cfg gc nma (c : coin O), coin_new H dbg cfg gc nma = Ok c ->
  exists fs, dw_new O dbg fs nma 6 = Ok (co_w c).
Proof.
  intros H dbg cfg gc nma c E. unfold coin_new in E. binv E.
  destruct (match cc_loss cfg with LossSquared => _ | _ => _ end) as [mn mx]. binv E. binv E.
  inversion E; subst; cbn [co_w]. eauto.
Qed.

Lemma coin_new_tinv : forall H dbg cfg gc nma (c : coin O), coin_new H dbg cfg gc nma = Ok c -> tinv (co_w c).
Proof.
  intros H dbg cfg gc nma c E. destruct (coin_new_table _ _ _ _ _ _ E) as (fs & E').
  revert E'. generalize (co_w c). intros w B1.
  unfold dw_new in B1. binv B1. binv B1. binv B1.
  unfold sub1_64 in B2. simpl in B2. inversion B2; subst.
  destruct (64 <? _); [discriminate|]. binv B1. binv B1. inversion B1; subst.
  unfold vec_zeros in B4. destruct (4 * v1 <? 9223372036854775808) eqn:L; [|discriminate].
  inversion B4; subst. apply N.ltb_lt in L. unfold tinv; cbn [dw_w dw_sshift dw_ssize].
  split; [reflexivity|]. split; [reflexivity|]. split; [rewrite repeat_length; lia|].
  intros j. rewrite nth_repeat_f0. apply H3.
Qed.

(** *** saving and loading *)
Lemma zero_same_refl : forall x : O, zero_same x x. Proof. left; reflexivity. Qed.

Lemma F2_nth : forall (l l' : list O), Forall2 zero_same l l' ->
  length l' = length l /\ forall j, zero_same (nth j l f0) (nth j l' f0).
Proof.
  induction 1 as [|x y l l' Hx F (L & I)]; [split; auto; intros []; apply zero_same_refl|].
  simpl. split; [lia|]. intros [|j]; auto.
Qed.

Lemma coin_reload : forall c : coin O, tinv (co_w c) ->
  coin_load (coin_save c) = Ok (with_list c (map znorm (dw_w (co_w c)))) /\
  crel c (with_list c (map znorm (dw_w (co_w c)))).
Proof.
  intros c (A & B & L & I). unfold coin_load, coin_save; cbn [fst snd]. rewrite (sparse_roundtrip _ L); cbn [bind].
  split; [reflexivity|]. destruct (F2_nth _ _ (znorm_same (dw_w (co_w c)))) as (F1 & F2).
  split; [|reflexivity]. unfold trel; cbn [with_list co_w dw_w dw_fsize dw_msize dw_ssize dw_mshift dw_sshift].
  repeat (split; [first [assumption|reflexivity]|]). split.
  - intros j _. apply H5, F2.
  - intros j Hj. apply (H6 (j mod 8)%nat); auto.
Qed.

Lemma ws_reload : forall n (r : red O n), tinv (co_w (bottom n r)) ->
  exists r', ws_load n (ws_save n r) = Ok r' /\ rrel crel n r r' /\ ws_save n r' = ws_save n r.
Proof.
  induction n as [|n IH]; intros r I.
  - destruct r as (w & c). cbn [bottom snd] in I. destruct (coin_reload c I) as (E & R).
    exists (w, with_list c (map znorm (dw_w (co_w c)))). cbn [ws_load ws_save fst snd]. rewrite E. cbn [bind].
    split; [reflexivity|]. split; [split; auto|]. f_equal. unfold coin_save. f_equal.
    cbn [with_list co_w dw_w]. generalize (dw_w (co_w c)). intros l. unfold sv_from_dense. rewrite map_length. f_equal.
    generalize 0. induction l as [|x l IHl]; intros z; [reflexivity|]. cbn [map enum_from filter snd].
    unfold znorm at 1 2. destruct (f_eqb O x f0) eqn:Ex; cbn [negb]; rewrite ?H7, ?Ex; cbn [negb]; now rewrite IHl.
  - destruct r as (wk & ch). cbn [bottom snd] in I. destruct (IH ch I) as (r' & E & R & S).
    exists (wk, r'). cbn [ws_load ws_save fst snd]. rewrite E, S. cbn [bind]. repeat split; auto.
Qed.

Lemma reach_tinv : forall H dbg gc (c : rcfg O) R r, ws_new H dbg gc c = Ok R -> reach dbg (projT2 R) r ->
  tinv (co_w (bottom (projT1 R) r)).
Proof.
  intros H dbg gc c R r E Q0. refine (reach_coin (fun c => tinv (co_w c)) _ dbg _ _ _ Q0 _).
  - intros; eapply tinv_learn; eauto.
  - unfold ws_new in E. destruct (create_coin _ _ _ _ _ _ E) as (cfg & N0). eapply coin_new_tinv; eauto.
Qed.

Lemma save_load : forall H dbg gc (c : rcfg O) R r, ws_new H dbg gc c = Ok R -> reach dbg (projT2 R) r ->
  exists r', ws_load _ (ws_save _ r) = Ok r' /\
    (forall dbg' cs, answers dbg' r' cs = answers dbg' r cs) /\
    ws_save _ r' = ws_save _ r.
Proof.
  intros H dbg gc c R r E Q0. destruct (ws_reload _ r (reach_tinv _ _ _ _ _ _ E Q0)) as (r' & L & Rr & S).
  exists r'. split; [exact L|]. split; [|exact S]. intros dbg' cs. symmetry.
  apply (answers_rel crel); auto using predict_coin, learn_coin, sens_coin.
Qed.
End Save.

(** ** binary32 *)
Section B32.
Context (e l : b32 -> b32) (p : b32 -> b32 -> b32).
Definition bZr (x y : b32) : Prop := y = x \/ (exists s, x = S754_zero s) /\ y = S754_zero false.
Definition bPa (x : b32) : Prop := efin x /\ nnz x.
Definition bQ (k : nat) (x : b32) : Prop :=
  match k with
  | 0%nat => True
  | 3%nat => nnz x
  | 5%nat => nneg x
  | 6%nat | 7%nat => nnz x
  | _ => efin x /\ nnz x
  end.

Lemma bzero : nnz (@f0 (BF e l p)). Proof. discriminate. Qed.

Lemma bH2 : forall a v x x' : BF e l p, bPa a -> bZr x x' ->
  f_add (BF e l p) a (f_mul (BF e l p) v x) = f_add (BF e l p) a (f_mul (BF e l p) v x') /\
  bPa (f_add (BF e l p) a (f_mul (BF e l p) v x)).
Proof.
  intros a v x x' (E & N0) Z. split.
  - destruct Z as [->|((s & ->) & ->)]; [reflexivity|]. now apply add_zero_term.
  - split; [apply add_efin; auto; apply mul_efin|apply add_nnz; auto; apply mul_efin].
Qed.

Lemma bH4 : forall cfg avg u x st st', inner_update (O := BF e l p) cfg avg u x st = Ok st' ->
  (forall k, (k < 6)%nat -> bQ k (sg st k)) -> forall k, (k < 6)%nat -> bQ k (sg st' k).
Proof.
  intros cfg avg u x st st' E I k Hk. unfold inner_update in E.
  destruct (Nat.eqb (length st) 6); [|discriminate]. cbv zeta in E.
  match type of E with Ok ?l = Ok _ => assert (E' : st' = l) by congruence end. clear E. subst st'.
  pose proof (I 1%nat ltac:(lia)) as (I1 & J1). pose proof (I 2%nat ltac:(lia)) as (I2 & J2).
  pose proof (I 3%nat ltac:(lia)) as J3. pose proof (I 4%nat ltac:(lia)) as (I4 & J4). pose proof (I 5%nat ltac:(lia)) as J5.
  cbn [bQ] in J3, J5.
  destruct k as [|[|[|[|[|[|k]]]]]]; try lia; unfold sg at 1; cbn [nth]; cbn [bQ].
  - exact Logic.I.
  - split; [apply add_efin|apply add_nnz]; auto; apply opp_efin, mul_efin.
  - split; [apply add_efin|apply add_nnz]; auto; apply abs_efin, mul_efin.
  - destruct (f_gtb _ _); [apply abs_nnz|exact J3].
  - split; [apply add_efin|apply add_nnz]; auto; apply mul_efin.
  - destruct (f_gtb (f_abs _ u) (sg st W_MG)) eqn:G1; [|exact J5].
    destruct (f_gtb (f_abs _ u) (cc_beta cfg)) eqn:G2; [apply abs_nneg|].
    exact (pick_nneg (SFabs u) (sg st W_MG) (cc_beta cfg) (abs_nneg u) J5 G1 G2).
Qed.

Lemma bH6 : forall k (x y : BF e l p), k <> 0%nat -> bQ k x -> @zero_same (BF e l p) x y -> y = x.
Proof.
  intros k x y Hk HQ Z. apply zero_same_b32 in Z. destruct Z as [->|((s & ->) & ->)]; auto.
  assert (N0 : (k <= 7)%nat -> nnz (S754_zero s)).
  { intros _. destruct k as [|[|[|[|[|[|[|[|k]]]]]]]]; try lia; cbn [bQ] in HQ; try (now apply nneg_nnz); try tauto. }
  destruct s; auto. destruct (Nat.le_gt_cases k 7) as [L|L]; [now destruct (N0 L)|].
  destruct k as [|[|[|[|[|[|[|[|k]]]]]]]]; try lia. cbn [bQ] in HQ. destruct HQ as (_ & HQ). now destruct HQ.
Qed.

Lemma save_load_b32 : forall H dbg gc (c : rcfg (BF e l p)) R r, ws_new H dbg gc c = Ok R -> reach dbg (projT2 R) r ->
  exists r', ws_load _ (ws_save _ r) = Ok r' /\
    (forall dbg' cs, answers dbg' r' cs = answers dbg' r cs) /\
    ws_save _ r' = ws_save _ r.
Proof.
  refine (save_load (O := BF e l p) bZr bPa bQ _ bH2 _ bH4 _ bH6 eq_refl).
  - split; [vm_compute; discriminate||exact I|discriminate].
  - intros k. destruct k as [|[|[|[|[|[|[|[|k]]]]]]]]; cbn [bQ]; repeat split; try discriminate; exact I.
  - intros x y Z. apply zero_same_b32 in Z. exact Z.
Qed.
End B32.

(** *** an example in which loading changes a weight, from -0.0 to 0.0 *)
Definition sv_fts : features BF0 := FtsSimple (ex_store 1%nat).
Definition sv_lb : label BF0 := LbSimple f1 (f_neg BF0 (f_lit BF0 1 10000000)).
Definition weights_of {n} (r : red BF0 n) : list BF0 := dw_w (co_w (bottom n r)).
Definition negz (x : b32) : bool := match x with S754_zero true => true | _ => false end.

Lemma save_example : exists R r f' r', ws_new ex_hash false ex_gc (CCoin (@coin_default BF0)) = Ok R /\
  ws_learn false (projT2 R) sv_fts sv_lb = Ok (r, f') /\ reach false (projT2 R) r /\
  ws_load _ (ws_save _ r) = Ok r' /\
  existsb negz (weights_of r) = true /\ existsb negz (weights_of r') = false /\ r <> r' /\
  existsb (fun x => negb (f_eqb BF0 x f0)) (weights_of r') = true.
Proof.
  destruct (ws_new ex_hash false ex_gc (CCoin (@coin_default BF0))) as [R|x|x] eqn:E; [|vm_compute in E; discriminate..].
  destruct (ws_learn false (projT2 R) sv_fts sv_lb) as [[r f']|x|x] eqn:L;
    [|vm_compute in E; inversion E; subst; vm_compute in L; discriminate..].
  destruct (ws_load _ (ws_save _ r)) as [r'|x|x] eqn:S;
    [|vm_compute in E; inversion E; subst; vm_compute in L; inversion L; subst; vm_compute in S; discriminate..].
  exists R, r, f', r'. split; [reflexivity|]. split; [exact L|].
  assert (Q : reach false (projT2 R) r) by (econstructor; [constructor|exact L]).
  split; [exact Q|]. split; [exact S|].
  assert (A : existsb negz (weights_of r) = true /\ existsb negz (weights_of r') = false /\
     existsb (fun x => negb (f_eqb BF0 x f0)) (weights_of r') = true).
  { clear Q. vm_compute in E. inversion E; subst. vm_compute in L. inversion L; subst. vm_compute in S. inversion S; subst.
    split; [|split]; vm_compute; reflexivity. }
  destruct A as (A & B & C). split; [exact A|]. split; [exact B|]. split; [|exact C]. intros ->. congruence.
Qed.
