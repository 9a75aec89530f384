(** Sensitivity (C79). *)
From Coq Require Import List NArith ZArith Bool Lia Reals Lra.
From Verif Require Import Base FloatOps FloatR FloatB32 Model_Hash Model_Features Model_Weights Model_Loss
  Model_Interactions Model_Types Model_Coin Model_Stack Proof_Hash Proof_Weights Spec_Weights Proof_WeightsProps
  Proof_Foreach Proof_FloatOrder Spec_Coin Spec_Reductions Spec_Sensitivity Proof_Coin Proof_CoinR Proof_Betting Proof_Bettor Proof_StackProps Proof_Types Proof_StackRestore.
Import ListNotations.
Open Scope R_scope.

(** ** any arithmetic *)
Section Any.
Context {O : FOps}.
Lemma sens_signs : forall dbg (c : coin O) f f' l l', coin_feats dbg c f = Ok l -> coin_feats dbg c f' = Ok l' ->
  Forall2 (fun a b => fst a = fst b /\ f_signum O (snd a) = f_signum O (snd b)) l l' ->
  coin_sensitivity dbg c f = coin_sensitivity dbg c f'.
Proof.
  intros dbg c f f' l l' E E' H. unfold coin_sensitivity. rewrite E, E'. cbn [bind]. clear E E'. generalize (f0 : O).
  induction H as [|a b l l' (H1 & H2) H IH]; intros s; cbn [foldm]; auto. rewrite H1.
  destruct (dw_state_at dbg (co_w c) (fst b) 0) as [st| |]; cbn [bind]; auto. unfold inner_sensitivity. rewrite H2.
  destruct (Nat.eqb (length st) 6); cbn [bind]; [apply IH|reflexivity].
Qed.
Lemma sens_stack : forall dbg n (r : red O n) f,
  sensitivity dbg n r f = match f with FtsSimple s => coin_sensitivity dbg (bottom n r) s | FtsCb _ _ => Pn PType end.
Proof.
  intros dbg n. induction n as [|n IH]; intros r f.
  - destruct f; reflexivity.
  - cbn [sensitivity bottom]. apply IH.
Qed.
End Any.

(** ** exact arithmetic *)
Lemma contribution_le : forall alpha beta l2 x g g', 0 < alpha -> 0 < beta -> 0 <= l2 -> 0 <= x -> 0 <= g <= g' ->
  contribution alpha beta l2 x g' <= contribution alpha beta l2 x g.
Proof.
  intros alpha beta l2 x g g' A B L X (G & G'). unfold contribution. destruct (Rlt_dec x 0); [lra|]. unfold Rdiv at 1 3. rewrite !Rmult_1_l.
  pose proof (sqrt_le_1 g g' G ltac:(lra) G') as Q. pose proof (sqrt_pos g) as P. apply Rinv_le_contravar.
  - apply Rplus_lt_le_0_compat; auto. apply Rdiv_lt_0_compat; lra.
  - apply Rplus_le_compat_r. unfold Rdiv. apply Rmult_le_compat_r; [left; now apply Rinv_0_lt_compat|lra].
Qed.
Lemma contribution_abs : forall alpha beta l2 x g, 0 < alpha -> 0 < beta -> 0 <= l2 -> 0 <= g ->
  Rabs (contribution alpha beta l2 x g) <= 1 / (beta / alpha + l2).
Proof.
  intros alpha beta l2 x g A B L G. unfold contribution. pose proof (sqrt_pos g) as P.
  assert (D : 0 < beta / alpha + l2) by (apply Rplus_lt_le_0_compat; auto; apply Rdiv_lt_0_compat; lra).
  assert (D' : beta / alpha + l2 <= (beta + sqrt g) / alpha + l2).
  { apply Rplus_le_compat_r. unfold Rdiv. apply Rmult_le_compat_r; [left; now apply Rinv_0_lt_compat|lra]. }
  unfold Rdiv at 1. rewrite Rabs_mult, (Rabs_right (/ _)) by (apply Rle_ge; left; apply Rinv_0_lt_compat; lra).
  replace (Rabs (if Rlt_dec x 0 then -1 else 1)) with 1 by (destruct (Rlt_dec x 0); [rewrite Rabs_left; lra|rewrite Rabs_right; lra]).
  unfold Rdiv at 2. apply Rmult_le_compat_l; [lra|]. apply Rinv_le_contravar; lra.
Qed.
Lemma contributions_le : forall alpha beta l2 xs gs gs', 0 < alpha -> 0 < beta -> 0 <= l2 -> Forall (fun x => 0 <= x) xs ->
  Forall2 (fun g g' => 0 <= g <= g') gs gs' -> contributions alpha beta l2 xs gs' <= contributions alpha beta l2 xs gs.
Proof.
  intros alpha beta l2 xs. induction xs as [|x xs IH]; intros gs gs' A B L X G; [destruct gs, gs'; cbn; lra|].
  inversion X; subst. destruct G as [|g g' gs gs' H G]; cbn; [lra|]. apply Rplus_le_compat; [now apply contribution_le|now apply IH].
Qed.
Lemma contributions_abs : forall alpha beta l2 xs gs, 0 < alpha -> 0 < beta -> 0 <= l2 -> Forall (fun g => 0 <= g) gs ->
  Rabs (contributions alpha beta l2 xs gs) <= INR (length xs) * (1 / (beta / alpha + l2)).
Proof.
  intros alpha beta l2 xs. assert (P : 0 < alpha -> 0 < beta -> 0 <= l2 -> 0 <= 1 / (beta / alpha + l2)).
  { intros A B L. apply Rlt_le. apply Rdiv_lt_0_compat; [lra|]. apply Rplus_lt_le_0_compat; auto. apply Rdiv_lt_0_compat; lra. }
  induction xs as [|x xs IH]; intros gs A B L G; specialize (P A B L).
  - destruct gs; cbn; rewrite Rabs_R0; lra.
  - cbn [length]. rewrite S_INR. destruct gs as [|g gs]; cbn [contributions].
    + rewrite Rabs_R0. apply Rmult_le_pos; auto. pose proof (pos_INR (length xs)). lra.
    + inversion G; subst. eapply Rle_trans; [apply Rabs_triang|]. pose proof (contribution_abs alpha beta l2 x g A B L ltac:(auto)). specialize (IH gs A B L ltac:(auto)). lra.
Qed.

Lemma fold_contrib : forall dbg (c : coin RF) (l : list (N * RF)) sts (s : RF),
  Forall2 (fun iv st => stored dbg c (fst iv) = Ok st /\ length st = 6%nat) l sts ->
  foldm (fun (acc : RF) (iv : N * RF) => let* st := dw_state_at dbg (co_w c) (fst iv) 0 in inner_sensitivity (co_cfg c) acc (snd iv) st) l s =
  Ok (s + contributions (cc_alpha (co_cfg c)) (cc_beta (co_cfg c)) (cc_l2 (co_cfg c)) (map snd l) (map gradients sts)).
Proof.
  intros dbg c l sts s H. revert s. induction H as [|iv st l sts (H1 & H2) H IH]; intros s; cbn [foldm map contributions].
  - f_equal. lra.
  - unfold stored in H1. rewrite H1. cbn [bind]. unfold inner_sensitivity. rewrite H2. cbn [Nat.eqb bind]. rewrite IH. f_equal.
    assert (G : (sg st W_G2 : R) = gradients st). { unfold sg, gradients. rewrite RF_f0. reflexivity. }
    change (f_add RF) with Rplus. change (f_mul RF) with Rmult. change (f_div RF) with Rdiv. change (f_sqrt RF) with sqrt. change (f_signum RF) with Rsignum. rewrite RF_f1.
    rewrite G. unfold contribution, Rsignum. destruct (Rlt_dec (snd iv) 0); unfold Rdiv; lra.
Qed.

Lemma contributions_nn : forall alpha beta l2 xs gs, 0 < alpha -> 0 < beta -> 0 <= l2 -> Forall (fun x => 0 <= x) xs -> Forall (fun g => 0 <= g) gs ->
  0 <= contributions alpha beta l2 xs gs.
Proof.
  intros alpha beta l2. induction xs as [|x xs IH]; intros [|g gs] A B L X1 X2; cbn [contributions]; try lra. inversion X1; inversion X2; subst.
  specialize (IH gs A B L ltac:(auto) ltac:(auto)).
  assert (0 <= contribution alpha beta l2 x g); [|lra]. unfold contribution. destruct (Rlt_dec x 0); [lra|]. apply Rlt_le, Rdiv_lt_0_compat; [lra|].
  pose proof (sqrt_pos g). apply Rplus_lt_le_0_compat; auto. apply Rdiv_lt_0_compat; lra.
Qed.
(** states along a run *)
Lemma fold_grow : forall cfg (avg u : RF) i l st, length st = 6%nat -> 0 <= fld st W_G2 ->
  let st' := fold_left (fun st (iv : N * RF) => if N.eqb (fst iv) i then iu cfg avg u (snd iv) st else st) l st in
  length st' = 6%nat /\ fld st W_G2 <= fld st' W_G2.
Proof.
  intros cfg avg u i l. induction l as [|iv l IH]; intros st L G; cbn [fold_left]; [split; auto; lra|].
  destruct (N.eqb (fst iv) i); [|now apply IH]. destruct (iu_real cfg avg u (snd iv) st L) as (L' & _ & _ & _ & G' & _).
  pose proof (Rabs_pos (u * snd iv)). change (@F RF) with R in *.
  assert (G2 : fld st W_G2 <= fld (iu cfg avg u (snd iv) st) W_G2). { rewrite G'. lra. }
  destruct (IH _ L' ltac:(lra)) as (L2 & H2). split; auto. lra.
Qed.
Lemma train_grow : forall dbg (c0 : coin RF) k h c, cinv dbg c0 h c -> Forall (fun e => below (dw_fsize (co_w c0)) (ex_f e)) k ->
  (forall i, (i < dw_fsize (co_w c0))%N -> 0 <= fld (read (co_w c) i 0) W_G2) ->
  exists c', train dbg k c = Ok c' /\ cinv dbg c0 (h ++ k) c' /\
    forall i, (i < dw_fsize (co_w c0))%N -> fld (read (co_w c) i 0) W_G2 <= fld (read (co_w c') i 0) W_G2.
Proof.
  intros dbg c0 k. induction k as [|e k IH]; intros h c I B Z.
  - exists c. rewrite app_nil_r. split; [reflexivity|]. split; auto. intros. lra.
  - inversion B as [|? ? B1 B2]; subst. destruct (cinv_step RF_ford dbg c0 h c e I B1) as (c1 & E1 & I1).
    pose proof I as [W Sh R Mi Ma Cf Lo Fe]. assert (Fs : dw_fsize (co_w c) = dw_fsize (co_w c0)) by apply Sh.
    assert (B' : below (dw_fsize (co_w c)) (ex_f e)) by now rewrite Fs.
    destruct (learn_ok dbg c (ex_f e) (ex_y e) (ex_w e) W B' (range_step RF_ford _ _ R))
      as (c' & l & p & cb & u & E' & W' & El & Ep & Eu & M1 & M2 & C1 & C2 & C3 & C4 & C5 & C6 & S' & Rd).
    rewrite E1 in E'. inversion E'; subst c'; clear E'.
    assert (G1 : forall i, (i < dw_fsize (co_w c0))%N -> fld (read (co_w c) i 0) W_G2 <= fld (read (co_w c1) i 0) W_G2).
    { intros i Hi. rewrite Rd by now rewrite Fs. apply fold_grow; [apply (read6 dbg); auto; now rewrite Fs|now apply Z]. }
    destruct (IH (h ++ [e]) c1 I1 B2) as (c2 & E2 & I2 & Z2).
    { intros i Hi. specialize (G1 i Hi). specialize (Z i Hi). lra. }
    exists c2. rewrite <- app_assoc in I2. split; [unfold train; cbn [foldm]; rewrite E1; exact E2|]. split; auto.
    intros i Hi. specialize (G1 i Hi). specialize (Z2 i Hi). lra.
Qed.

Lemma states_of : forall dbg (c : coin RF) l, cwf dbg c -> (forall i v, In (i, v) l -> (i < dw_fsize (co_w c))%N) ->
  Forall2 (fun (iv : N * RF) st => stored dbg c (fst iv) = Ok st /\ length st = 6%nat) l (map (fun iv => read (co_w c) (fst iv) 0) l).
Proof.
  intros dbg c l W H. induction l as [|(i, v) l IH]; cbn [map]; constructor.
  - apply (read6 dbg c i W). apply (H i v). now left.
  - apply IH. intros j w Hj. apply (H j w). now right.
Qed.
Lemma sens_at : forall dbg (c0 : coin RF) h c f l, cinv dbg c0 h c -> coin_feats dbg c0 f = Ok l ->
  (forall i v, In (i, v) l -> (i < dw_fsize (co_w c0))%N) ->
  coin_sensitivity dbg c f = Ok (contributions (cc_alpha (co_cfg c0)) (cc_beta (co_cfg c0)) (cc_l2 (co_cfg c0)) (map snd l)
    (map (fun iv => gradients (read (co_w c) (fst iv) 0)) l)).
Proof.
  intros dbg c0 h c f l I El Hl. pose proof I as [W Sh R Mi Ma Cf Lo Fe]. unfold coin_sensitivity. rewrite Fe, El. cbn [bind].
  rewrite (fold_contrib dbg c l (map (fun iv => read (co_w c) (fst iv) 0) l)).
  - rewrite map_map, Cf. f_equal. rewrite RF_f0. lra.
  - apply states_of; auto. intros i v Hi. destruct Sh as (S1 & _). rewrite S1. now apply (Hl i v).
Qed.
Lemma gradients_fld : forall st : list R, gradients st = fld st W_G2.
Proof. intros st. unfold gradients, fld, sg. rewrite RF_f0. reflexivity. Qed.

Lemma sens_main : forall H dbg (cfg : coin_config RF) gc nma n (c0 : coin RF) h k f,
  coin_new H dbg cfg gc nma = Ok c0 -> (0 < nma < 2 ^ 8)%N -> bits_to_max_feature_index dbg (gc_bits gc) = Ok n ->
  Forall (fun e => below n (ex_f e)) (h ++ k) -> below n f ->
  0 < (cc_alpha cfg : R) -> 0 < (cc_beta cfg : R) -> 0 <= (cc_l2 cfg : R) ->
  exists c c' l sts sts' (s s' : R), train dbg h c0 = Ok c /\ train dbg k c = Ok c' /\ coin_feats dbg c0 f = Ok l /\
    coin_sensitivity dbg c f = Ok s /\ coin_sensitivity dbg c' f = Ok s' /\
    Forall2 (fun iv st => stored dbg c (fst iv) = Ok st) l sts /\ Forall2 (fun iv st => stored dbg c' (fst iv) = Ok st) l sts' /\
    s = contributions (cc_alpha cfg) (cc_beta cfg) (cc_l2 cfg) (map snd l) (map gradients sts) /\
    Forall2 (fun st st' => 0 <= gradients st <= gradients st') sts sts' /\
    Rabs s <= INR (length l) * (1 / ((cc_beta cfg : R) / (cc_alpha cfg : R) + (cc_l2 cfg : R))) /\
    (Forall (fun iv => 0 <= (snd iv : R)) l -> 0 <= s' <= s).
Proof.
  intros H dbg cfg gc nma n c0 h k f E Hn Hb Bh Bf A Bt L2.
  destruct (coin_new_wf _ _ _ _ _ _ E Hn) as (W & B & _ & _ & C & _ & Z0).
  rewrite Hb in B. inversion B; subst n; clear B. pose proof (cinv_init RF_ford _ _ _ _ _ _ E Hn) as I0.
  apply Forall_app in Bh. destruct Bh as (B1 & B2).
  assert (Z : forall i, (i < dw_fsize (co_w c0))%N -> fld (read (co_w c0) i 0) W_G2 = 0).
  { intros i Hi. destruct (fresh_state _ _ _ _ _ _ _ E Hn Hi) as (_ & F). apply F. unfold W_G2; lia. }
  destruct (train_grow dbg c0 h [] c0 I0 B1) as (c & Et & I & G1). { intros i Hi. rewrite Z by auto. lra. }
  assert (G0 : forall i, (i < dw_fsize (co_w c0))%N -> 0 <= fld (read (co_w c) i 0) W_G2). { intros i Hi. specialize (G1 i Hi). rewrite Z in G1 by auto. exact G1. }
  destruct (train_grow dbg c0 k _ c I B2 G0) as (c' & Et' & I' & G2).
  destruct (feats_ok dbg c0 f W Bf) as (l & El & Hl).
  exists c, c', l, (map (fun iv => read (co_w c) (fst iv) 0) l), (map (fun iv => read (co_w c') (fst iv) 0) l).
  pose proof (sens_at dbg c0 _ c f l I El Hl) as S1. pose proof (sens_at dbg c0 _ c' f l I' El Hl) as S2. rewrite C in S1, S2.
  assert (P : Forall2 (fun st st' => 0 <= gradients st <= gradients st') (map (fun iv => read (co_w c) (fst iv) 0) l) (map (fun iv => read (co_w c') (fst iv) 0) l)).
  { clear El S1 S2. induction l as [|(i, v) l IH]; cbn [map fst]; constructor.
    - assert (Hi : (i < dw_fsize (co_w c0))%N) by (apply (Hl i v); now left). rewrite !gradients_fld. split; [now apply G0|now apply G2].
    - apply IH. intros j w Hj. apply (Hl j w). now right. }
  assert (ST : forall hh d, cinv dbg c0 hh d -> Forall2 (fun (iv : N * RF) st => stored dbg d (fst iv) = Ok st) l (map (fun iv => read (co_w d) (fst iv) 0) l)).
  { intros hh d Id. pose proof Id as [Wd Sd _ _ _ _ _ _]. assert (Q := states_of dbg d l Wd).
    assert (Hl' : forall i v, In (i, v) l -> (i < dw_fsize (co_w d))%N) by (intros i v Hi; destruct Sd as (Sd & _); rewrite Sd; now apply (Hl i v)).
    specialize (Q Hl'). clear -Q. induction Q as [|a b x y (Q1 & _) Q IH]; constructor; auto. }
  eexists. eexists. split; [exact Et|]. split; [exact Et'|]. split; [exact El|]. split; [exact S1|]. split; [exact S2|].
  split; [exact (ST _ _ I)|]. split; [exact (ST _ _ I')|]. rewrite map_map. split; [reflexivity|]. split; [exact P|].
  assert (NN : forall cc, (forall i, (i < dw_fsize (co_w c0))%N -> 0 <= fld (read (co_w cc) i 0) W_G2) -> Forall (fun g => 0 <= g) (map (fun iv : N * R => gradients (read (co_w cc) (fst iv) 0)) l)).
  { intros cc Hc. apply Forall_forall. intros g Hg. apply in_map_iff in Hg. destruct Hg as ((i, v) & <- & Hi). rewrite gradients_fld. apply Hc. now apply (Hl i v). }
  split. { pose proof (contributions_abs (cc_alpha cfg) (cc_beta cfg) (cc_l2 cfg) (map snd l) _ A Bt L2 (NN c G0)) as Q. rewrite map_length in Q. exact Q. }
  intros X. split.
  - apply contributions_nn; auto.
    + apply Forall_map. exact X.
    + apply NN. intros i Hi. specialize (G2 i Hi). specialize (G0 i Hi). lra.
  - apply contributions_le; auto. { apply Forall_map. exact X. }
    clear -P. induction l as [|a l IH]; cbn [map] in *; [constructor|]. inversion P; subst. constructor; auto.
Qed.

(** ** concrete cases *)
Lemma ex_sens : exists (c0 : coin RF),
  coin_new ex_hash true (@coin_default RF) gc16 1 = Ok c0 /\ bits_to_max_feature_index true (gc_bits gc16) = Ok 16%N /\
  Forall (fun e => below 16 (ex_f e)) (ex_run RF ++ ex_run RF) /\ below 16 (two RF) /\
  0 < (cc_alpha (@coin_default RF) : R) /\ 0 < (cc_beta (@coin_default RF) : R) /\ 0 <= (cc_l2 (@coin_default RF) : R) /\
  exists l, coin_feats true c0 (two RF) = Ok l /\ l <> [] /\ Forall (fun iv => 0 <= (snd iv : R)) l.
Proof.
  destruct ex_coin_R as (c0 & E & B & _ & F). exists c0. split; auto. split; auto. split; [apply Forall_app; auto|]. split; [apply ex_below|].
  assert (L : forall z, (0 <= z)%Z -> 0 <= (@fl RF z : R)). { intros z Hz. unfold fl. cbn. pose proof (IZR_le 0 z Hz). lra. }
  split; [cbn; lra|]. split; [cbn; lra|]. split; [cbn; lra|].
  assert (N1 : (0 < 1 < 2 ^ 8)%N) by lia.
  destruct (coin_new_wf _ _ _ _ _ _ E N1) as (W & B' & _). rewrite B in B'. inversion B' as [B2].
  destruct (feats_ok true c0 (two RF) W) as (l & El & _). { pose proof (ex_below RF) as (Q & _). first [exact Q | rewrite B2 in Q; exact Q | rewrite B2; exact Q | congruence]. }
  exists l. split; auto. revert El. unfold coin_new in E. cbn [gc_inter gc16 gc_seed compile_interactions bind] in E.
  change (bits_to_max_feature_index true (gc_bits gc16)) with (Ok 16%N : out N) in E. cbn [bind cc_loss coin_default] in E.
  binv E. cbn in B0. inversion B0; subst v. binv E. inversion E; subst c0. unfold coin_feats, fe_list. cbn [co_bits co_const co_pairs co_triples fst snd gc_bits gc_const gc16]. intros El.
  cbn in El. inversion El; subst. split; [discriminate|]. repeat constructor; cbn; try lra; try (unfold f1, fl; cbn; lra).
Qed.
Definition zero_value : sfeats BF0 := [(NsNamed 3, mkSfn (NsNamed 3) [9%N] [@f0 BF0] true)].
Definition no_value : sfeats BF0 := [(NsNamed 3, mkSfn (NsNamed 3) [] [] true)].
Lemma zero_counts : exists (c0 : coin BF0) s s', coin_new ex_hash true (@coin_default BF0) gc16n 1 = Ok c0 /\
  coin_predict true c0 zero_value = coin_predict true c0 no_value /\
  coin_sensitivity true c0 zero_value = Ok s /\ coin_sensitivity true c0 no_value = Ok s' /\ s <> s'.
Proof. eexists. eexists. eexists. split; [vm_compute; reflexivity|]. split; [vm_compute; reflexivity|]. split; [vm_compute; reflexivity|]. split; [vm_compute; reflexivity|]. discriminate. Qed.
Definition scaled : sfeats BF0 := [(NsDefault, mkSfn NsDefault [5%N; 6%N] [@fl BF0 7; @f_lit BF0 1 3] true)].
Lemma ex_signs : exists (c0 : coin BF0) l l', coin_new ex_hash true (@coin_default BF0) gc16 1 = Ok c0 /\
  coin_feats true c0 (two BF0) = Ok l /\ coin_feats true c0 scaled = Ok l' /\ l <> l' /\
  Forall2 (fun a b => fst a = fst b /\ f_signum BF0 (snd a) = f_signum BF0 (snd b)) l l'.
Proof.
  eexists. eexists. eexists. split; [vm_compute; reflexivity|]. split; [vm_compute; reflexivity|]. split; [vm_compute; reflexivity|].
  split; [discriminate|]. repeat constructor.
Qed.
