(** Regressors that are given the same features with other indices and other values. *)
From Coq Require Import List NArith ZArith Bool Lia.
From Verif Require Import Base FloatOps Model_Hash Model_Features Model_Types Model_Interactions Model_Weights
  Model_Coin Model_Stack Model_Factory Spec_Stack Spec_Reductions Spec_Save Spec_Empty Spec_Inter Spec_Units
  Proof_Features Proof_Weights Proof_WeightsProps Proof_Coin Proof_Inter Proof_StackRestore Proof_StackShape Proof_StackProps Proof_StackRel Proof_StackTwo.
Import ListNotations.
Open Scope N_scope.

Section Feats.
Context {O : FOps} (ix : N -> N) (va : N -> O -> O).
Notation re := (retell ix va). Notation ren := (retell_ns ix va).
Implicit Types (a b m : sfeats O) (s : sfn O).
Definition pns s : Prop := length (sfn_idx s) = length (sfn_val s).
Lemma re_get : forall k m, fm_get k (re m) = option_map ren (fm_get k m).
Proof. intros k m. induction m as [|(k' & s) m IH]; cbn [retell map fm_get fst snd]; auto. destruct (ns_eqb k k'); auto. Qed.
Lemma re_set : forall k s m, fm_set k (ren s) (re m) = re (fm_set k s m).
Proof.
  intros k s m. induction m as [|(k' & s') m IH]; cbn [retell map fm_set fst snd]; auto.
  destruct (ns_compare k k'); cbn [retell map fst snd]; auto. f_equal. exact IH.
Qed.
Lemma paired_get : forall k s m, paired m -> fm_get k m = Some s -> pns s.
Proof. intros k s m P E. apply fm_get_in in E. eapply P; eauto. Qed.
Lemma set_in : forall k s m k' s', In (k', s') (fm_set k s m) -> (k' = k /\ s' = s) \/ In (k', s') m.
Proof.
  intros k s m k' s'. induction m as [|(k1 & s1) m IH]; cbn [fm_set].
  - intros [E|[]]. inversion E; auto.
  - destruct (ns_compare k k1); intros [E|E]; auto; try (inversion E; subst; auto; fail).
    + right. now right.
    + right. now left.
    + destruct (IH E); auto. right. now right.
Qed.
Lemma paired_set : forall k s m, paired m -> pns s -> paired (fm_set k s m).
Proof. intros k s m P Q k' s' E. destruct (set_in _ _ _ _ _ E) as [(_ & ->)|E']; auto. eapply P; eauto. Qed.
Lemma ren_size : forall s, sfn_size (ren s) = sfn_size s.
Proof. intros s. unfold sfn_size, retell_ns. cbn [sfn_idx]. apply map_length. Qed.
Lemma ren_vals : forall s, pns s -> length (sfn_val (ren s)) = length (sfn_val s).
Proof. intros s P. unfold retell_ns. cbn [sfn_val]. rewrite map_length, combine_length. unfold pns in P. lia. Qed.
Lemma upd_re : forall k (f g : sfn O -> out (sfn O)) m, paired m ->
  (forall s, pns s -> orel (fun u v => pns u /\ v = ren u) (f s) (g (ren s))) ->
  orel (fun u v => paired u /\ v = re u) (sf_updm_ns k f m) (sf_updm_ns k g (re m)).
Proof.
  intros k f g m P H. unfold sf_updm_ns. rewrite re_get.
  assert (Q : exists s, pns s /\ match fm_get k m with Some s => s | None => sfn_new k end = s /\
     match option_map ren (fm_get k m) with Some s => s | None => sfn_new k end = ren s).
  { destruct (fm_get k m) as [s|] eqn:E; cbn [option_map]; [exists s|exists (sfn_new k)].
    - split; [eapply paired_get; eauto|auto].
    - split; [reflexivity|split; reflexivity]. }
  destruct Q as (s & Ps & -> & ->).
  eapply orel_bind; [apply (H (sfn_set_active true s)); exact Ps|]. intros u v (Pu & ->).
  constructor. split; [now apply paired_set|apply re_set].
Qed.
Lemma foldm_re : forall (f g : sfeats O -> namespace * sfn O -> out (sfeats O)) b,
  (forall m kv, In kv b -> paired m -> orel (fun u v => paired u /\ v = re u) (f m kv) (g (re m) (fst kv, ren (snd kv)))) ->
  forall m, paired m -> orel (fun u v => paired u /\ v = re u) (foldm f b m) (foldm g (re b) (re m)).
Proof.
  intros f g b. induction b as [|kv b IH]; intros H m P; cbn [foldm retell map].
  - constructor. auto.
  - eapply orel_bind; [apply H; [now left|exact P]|]. intros u v (Pu & ->). apply IH; auto. intros m' kv' Hk. apply H. now right.
Qed.
Lemma combine_app2 : forall A B (l1 l2 : list A) (m1 m2 : list B), length l1 = length m1 -> combine (l1 ++ l2) (m1 ++ m2) = combine l1 m1 ++ combine l2 m2.
Proof. intros A B l1. induction l1 as [|x l1 IH]; intros l2 [|y m1] m2 E; simpl in *; try discriminate; auto. f_equal. apply IH. lia. Qed.
Lemma adds_re : forall s0 s, pns s0 -> pns s ->
  orel (fun u v => pns u /\ v = ren u) (sfn_adds (sfn_idx s0) (sfn_val s0) s) (sfn_adds (sfn_idx (ren s0)) (sfn_val (ren s0)) (ren s)).
Proof.
  intros s0 s P Q. unfold sfn_adds. rewrite ren_vals by exact P. change (length (sfn_idx (ren s0))) with (sfn_size (ren s0)). rewrite ren_size. unfold sfn_size.
  destruct (Nat.eqb (length (sfn_idx s0)) (length (sfn_val s0))); constructor. split.
  - unfold pns. cbn [sfn_idx sfn_val]. rewrite !app_length. unfold pns in *. lia.
  - unfold retell_ns. cbn [sfn_idx sfn_val sfn_ns sfn_active]. rewrite combine_app2 by exact Q. now rewrite !map_app.
Qed.
Lemma firstn_combine2 : forall A B n (l : list A) (m : list B), firstn n (combine l m) = combine (firstn n l) (firstn n m).
Proof. intros A B n. induction n as [|n IH]; intros [|x l] [|y m]; simpl; auto. now rewrite IH. Qed.
Lemma trunc_re : forall n s, pns s ->
  orel (fun u v => pns u /\ v = ren u) (sfn_truncate_by false n s) (sfn_truncate_by false n (ren s)).
Proof.
  intros n s P. unfold sfn_truncate_by. rewrite ren_size. destruct (Nat.leb n (sfn_size s)).
  - set (u := mkSfn (sfn_ns s) (firstn (sfn_size s - n) (sfn_idx s)) (firstn (sfn_size s - n) (sfn_val s)) (sfn_active s)).
    assert (E : mkSfn (sfn_ns (ren s)) (firstn (sfn_size s - n) (sfn_idx (ren s))) (firstn (sfn_size s - n) (sfn_val (ren s))) (sfn_active (ren s)) = ren u).
    { unfold u, retell_ns. cbn [sfn_idx sfn_val sfn_ns sfn_active]. now rewrite <- firstn_combine2, <- !firstn_map. }
    rewrite E, ren_size. assert (Pu : pns u) by (unfold pns, u; cbn [sfn_idx sfn_val]; rewrite !firstn_length; unfold pns in P; lia).
    destruct (Nat.eqb (sfn_size u) 0); constructor; auto.
  - destruct (Nat.eqb (sfn_size s) 0); constructor; auto.
Qed.
Definition zre (a b : sfeats O) : Prop := paired a /\ b = re a.
Lemma zre_append : forall (a b s t : sfeats O), zre a b -> zre s t -> orel zre (sf_append a s) (sf_append b t).
Proof.
  intros a b s t (Pa & ->) (Ps & ->). unfold sf_append. apply foldm_re; auto. intros m (k & s0) Hk Pm. cbn [fst snd].
  change (sfn_active (ren s0)) with (sfn_active s0). destruct (sfn_active s0); [|constructor; auto]. apply upd_re; auto. intros s1 P1.
  apply adds_re; auto. eapply Ps; eauto.
Qed.
Lemma zre_remove : forall (a b s t : sfeats O), zre a b -> zre s t -> orel zre (sf_remove false a s) (sf_remove false b t).
Proof.
  intros a b s t (Pa & ->) (Ps & ->). unfold sf_remove. apply foldm_re; auto. intros m (k & s0) Hk Pm. cbn [fst snd].
  change (sfn_active (ren s0)) with (sfn_active s0). destruct (sfn_active s0); [|constructor; auto]. rewrite ren_size. apply upd_re; auto. intros s1 P1.
  now apply trunc_re.
Qed.
Definition ref (p : N * O) : N * O := (ix (fst p), va (fst p) (snd p)).
Lemma combine_map2 : forall A B (f : A -> B) C (g : A * C -> C) (l : list A) (m : list C), length l = length m ->
  combine (map f l) (map g (combine l m)) = map (fun p => (f (fst p), g p)) (combine l m).
Proof. intros A B f C g l. induction l as [|x l IH]; intros [|y m] E; simpl in *; try discriminate; auto. f_equal. apply IH. lia. Qed.
Lemma all_re : forall a, paired a -> sf_all (re a) = map ref (sf_all a).
Proof.
  intros a. unfold sf_all. induction a as [|(k & s) a IH]; intros P; cbn [retell map flat_map fst snd]; auto.
  rewrite map_app. f_equal.
  - unfold sfn_iter, retell_ns. cbn [sfn_idx sfn_val]. rewrite combine_map2; [reflexivity|]. apply (P k). now left.
  - apply IH. intros k' s' E. apply (P k'). now right.
Qed.
End Feats.

(** ** the regressor *)
Section Coin.
Context {O : FOps} (ix : N -> N) (va : N -> O -> O) (fac : N -> nat -> O -> O).
Context (INJ : forall i j, ix i = ix j -> i = j).
Definition srelz (i : N) (st st' : list O) : Prop :=
  length st = 6%nat /\ length st' = 6%nat /\ forall n, (n < 6)%nat -> sg st' n = fac i n (sg st n).
Definition pos (w : dweights O) (i : N) : nat := N.to_nat (cell (dw_mshift w) (dw_sshift w) i 0).
Record wrelz (w w' : dweights O) : Prop := mkWz {
  wz_f : dw_fsize w' = dw_fsize w; wz_m : dw_msize w' = dw_msize w; wz_s : dw_ssize w' = dw_ssize w;
  wz_ms : dw_mshift w' = dw_mshift w; wz_ss : dw_sshift w' = dw_sshift w; wz_l : length (dw_w w') = length (dw_w w);
  wz_6 : dw_ssize w = 6; wz_sh : 6 <= 2 ^ dw_sshift w;
  wz_in : forall i, (pos w (ix i) + 6 <= length (dw_w w) <-> pos w i + 6 <= length (dw_w w))%nat;
  wz_at : forall i, (pos w (ix i) < length (dw_w w) <-> pos w i < length (dw_w w))%nat;
  wz_v : forall i n, (n < 6)%nat -> nth (pos w (ix i) + n) (dw_w w') f0 = fac i n (nth (pos w i + n) (dw_w w) f0)
}.
Lemma slice_z : forall w w' i, wrelz w w' ->
  orel (srelz i) (slice (pos w i) 6 (dw_w w)) (slice (pos w (ix i)) 6 (dw_w w')).
Proof.
  intros w w' i W. unfold slice. rewrite (wz_l _ _ W).
  destruct (Nat.leb_spec (pos w i + 6) (length (dw_w w))) as [L|L].
  - rewrite (proj2 (Nat.leb_le _ _)) by (apply (wz_in _ _ W); exact L). apply (proj2 (wz_in _ _ W i)) in L as L'. constructor.
    split; [rewrite firstn_length, skipn_length; lia|split; [rewrite firstn_length, skipn_length, (wz_l _ _ W); lia|]].
    intros n Hn. unfold sg. rewrite !slice_nth by lia. now apply (wz_v _ _ W).
  - rewrite (proj2 (Nat.leb_gt _ _)); [constructor|]. destruct (Nat.lt_ge_cases (length (dw_w w)) (pos w (ix i) + 6)) as [G|G]; auto.
    apply (proj1 (wz_in _ _ W i)) in G. lia.
Qed.
Lemma state_z : forall w w' i, wrelz w w' -> orel (srelz i) (dw_state_at false w i 0) (dw_state_at false w' (ix i) 0).
Proof.
  intros w w' i W. unfold dw_state_at, dw_index. cbn [andb bind]. rewrite (wz_s _ _ W), (wz_ms _ _ W), (wz_ss _ _ W), (wz_6 _ _ W).
  exact (slice_z w w' i W).
Qed.
Lemma weight_z : forall w w' i, wrelz w w' -> orel (fun x y => y = fac i 0 x) (dw_weight_at false w i 0) (dw_weight_at false w' (ix i) 0).
Proof.
  intros w w' i W. unfold dw_weight_at, dw_index. cbn [andb bind]. rewrite (wz_ms _ _ W), (wz_ss _ _ W).
  change (orel (fun x y => y = fac i 0 x) (opt_or PIndex (nth_error (dw_w w) (pos w i))) (opt_or PIndex (nth_error (dw_w w') (pos w (ix i))))).
  destruct (nth_error (dw_w w) (pos w i)) as [x|] eqn:E.
  - assert (L : (pos w i < length (dw_w w))%nat) by (apply nth_error_Some; congruence).
    apply (proj2 (wz_at _ _ W i)) in L. rewrite (nth_error_nth' _ f0) by (rewrite (wz_l _ _ W); exact L). constructor.
    pose proof (wz_v _ _ W i 0%nat ltac:(lia)) as V. rewrite !Nat.add_0_r in V. rewrite V. f_equal. now apply nth_error_nth.
  - apply nth_error_None in E. rewrite (proj2 (nth_error_None _ _)); [constructor|]. rewrite (wz_l _ _ W).
    destruct (Nat.lt_ge_cases (pos w (ix i)) (length (dw_w w))) as [G|G]; auto. apply (proj1 (wz_at _ _ W i)) in G. lia.
Qed.
Lemma upd_z : forall w w' i g g', wrelz w w' -> (forall st st', srelz i st st' -> orel (srelz i) (g st) (g' st')) ->
  orel wrelz (dw_state_upd false w i 0 g) (dw_state_upd false w' (ix i) 0 g').
Proof.
  intros w w' i g g' W H. unfold dw_state_upd, dw_index. cbn [andb bind]. rewrite (wz_s _ _ W), (wz_ms _ _ W), (wz_ss _ _ W), (wz_6 _ _ W).
  fold (cell (dw_mshift w) (dw_sshift w) i 0) (cell (dw_mshift w) (dw_sshift w) (ix i) 0). fold (pos w i) (pos w (ix i)).
  change (N.to_nat 6) with 6%nat. pose proof (slice_z w w' i W) as Sl.
  assert (B : forall v, slice (pos w i) 6 (dw_w w) = Ok v -> (pos w i + 6 <= length (dw_w w))%nat).
  { intros v. unfold slice. destruct (Nat.leb_spec (pos w i + 6) (length (dw_w w))); [auto|discriminate]. }
  destruct Sl as [st st' Q| |]; cbn [bind]; try constructor. specialize (B st eq_refl).
  eapply orel_bind; [apply H; exact Q|]. intros u v (L1 & L2 & V). constructor.
  assert (B' : (pos w (ix i) + 6 <= length (dw_w w))%nat) by now apply (wz_in _ _ W).
  assert (La : length (write_slice (pos w i) u (dw_w w)) = length (dw_w w)) by (apply write_slice_length; lia).
  assert (Lb : length (write_slice (pos w (ix i)) v (dw_w w')) = length (dw_w w')) by (apply write_slice_length; rewrite (wz_l _ _ W); lia).
  assert (D : forall k l n, k <> l -> (n < 6)%nat -> (pos w l + n < pos w k)%nat \/ (pos w k + 6 <= pos w l + n)%nat).
  { intros k l n Hkl Hn. destruct (cell_disjoint (dw_mshift w) (dw_sshift w) k 0 l 0 6) as [D|D].
    - apply N.neq_0_lt_0, N.pow_nonzero. discriminate.
    - apply N.neq_0_lt_0, N.pow_nonzero. discriminate.
    - exact (wz_sh _ _ W).
    - intros X. apply Hkl. now inversion X.
    - right. unfold pos. lia.
    - left. unfold pos. lia. }
  split; cbn [dw_w dw_fsize dw_msize dw_ssize dw_mshift dw_sshift]; try apply W; try reflexivity.
  - rewrite La, Lb. apply W.
  - rewrite La. exact (wz_in _ _ W).
  - rewrite La. exact (wz_at _ _ W).
  - intros j n Hn. change (nth (pos w (ix j) + n) (write_slice (pos w (ix i)) v (dw_w w')) f0 = fac j n (nth (pos w j + n) (write_slice (pos w i) u (dw_w w)) f0)).
    rewrite !write_slice_nth by (rewrite ?(wz_l _ _ W); lia). rewrite L1, L2.
    destruct (N.eq_dec j i) as [->|Ne].
    + assert (X : forall p : nat, (Nat.leb p (p + n) && Nat.ltb (p + n) (p + 6) = true)%bool).
      { intros p. apply andb_true_iff. split; [apply Nat.leb_le; lia|apply Nat.ltb_lt; lia]. }
      rewrite !X.
      replace (pos w (ix i) + n - pos w (ix i))%nat with n by lia. replace (pos w i + n - pos w i)%nat with n by lia. now apply V.
    + assert (Ne' : ix i <> ix j) by (intros X; apply Ne; symmetry; now apply INJ).
      assert (Ne2 : i <> j) by congruence.
      assert (X1 : (Nat.leb (pos w i) (pos w j + n) && Nat.ltb (pos w j + n) (pos w i + 6) = false)%bool).
      { apply andb_false_iff. destruct (D i j n Ne2 Hn); [left; apply Nat.leb_gt; lia|right; apply Nat.ltb_ge; lia]. }
      assert (X2 : (Nat.leb (pos w (ix i)) (pos w (ix j) + n) && Nat.ltb (pos w (ix j) + n) (pos w (ix i) + 6) = false)%bool).
      { apply andb_false_iff. destruct (D (ix i) (ix j) n Ne' Hn); [left; apply Nat.leb_gt; lia|right; apply Nat.ltb_ge; lia]. }
      rewrite X1, X2. now apply (wz_v _ _ W).
Qed.

Context (IP : forall cfg acc x i st st', srelz i st st' -> inner_predict cfg acc (va i x) st' = inner_predict cfg acc x st).
Context (IU : forall cfg avg u x i st st', srelz i st st' -> orel (srelz i) (inner_update cfg avg u x st) (inner_update cfg avg u (va i x) st')).
Context (DOT : forall k (x w : O), f_mul O (va k x) (fac k 0%nat w) = f_mul O x w).

Definition constz (c : coin O) : Prop := co_const c = true -> forall i, constant_feature_index false (co_bits c) = Ok i -> ix i = i /\ va i f1 = f1.
Record crelz (c c' : coin O) : Prop := mkCz {
  cz_w : wrelz (co_w c) (co_w c'); cz_cfg : co_cfg c' = co_cfg c; cz_st : co_states c' = co_states c; cz_avg : co_avg c' = co_avg c;
  cz_min : co_min c' = co_min c; cz_max : co_max c' = co_max c; cz_loss : co_loss c' = co_loss c;
  cz_ps : co_pairs c = []; cz_ts : co_triples c = []; cz_ps' : co_pairs c' = []; cz_ts' : co_triples c' = [];
  cz_bits : co_bits c' = co_bits c; cz_const : co_const c' = co_const c; cz_cf : constz c
}.
Lemma feats_z : forall c c' a b, crelz c c' -> zre ix va a b ->
  orel (fun l l' => l' = map (ref ix va) l) (coin_feats false c a) (coin_feats false c' b).
Proof.
  intros c c' a b C (P & ->). unfold coin_feats, fe_list.
  rewrite (cz_ps _ _ C), (cz_ts _ _ C), (cz_ps' _ _ C), (cz_ts' _ _ C), (cz_bits _ _ C), (cz_const _ _ C).
  apply orel_eq. intros mk. cbn [flat_map app]. pose proof (cz_cf _ _ C) as K. unfold constz in K. destruct (co_const c); cbn [bind].
  - destruct (constant_feature_index false (co_bits c)) as [i| |]; cbn [bind]; constructor.
    destruct (K eq_refl i eq_refl) as (K1 & K2).
    rewrite all_re by exact P. rewrite map_app. f_equal. cbn [map]. unfold ref. cbn [fst snd]. now rewrite K1, K2.
  - constructor. rewrite !app_nil_r. now apply all_re.
Qed.
Lemma dot_z : forall c c' l, crelz c c' -> coin_dot false c l = coin_dot false c' (map (ref ix va) l).
Proof.
  intros c c' l C. unfold coin_dot. generalize (@f0 O). induction l as [|(i & x) l IH]; intros acc; cbn [foldm map]; auto.
  unfold ref at 1 2. cbn [fst snd]. destruct (weight_z _ _ i (cz_w _ _ C)) as [w w' ->| |]; cbn [bind]; auto.
  rewrite DOT. apply IH.
Qed.
Lemma predict_cz : forall c c' a b, crelz c c' -> zre ix va a b -> coin_predict false c a = coin_predict false c' b.
Proof.
  intros c c' a b C Q. unfold coin_predict. destruct (feats_z _ _ _ _ C Q) as [l l' ->| |]; cbn [bind]; auto.
  rewrite <- (dot_z c c') by exact C. now rewrite (cz_min _ _ C), (cz_max _ _ C), (cz_cfg _ _ C).
Qed.
Lemma betting_z : forall c c' a b wt, crelz c c' -> zre ix va a b ->
  orel (fun u v => fst u = fst v /\ crelz (snd u) (snd v)) (coin_betting_predict false c a wt) (coin_betting_predict false c' b wt).
Proof.
  intros c c' a b wt C Q. unfold coin_betting_predict. destruct (feats_z _ _ _ _ C Q) as [l l' ->| |]; cbn [bind]; try constructor.
  assert (E : forall acc, foldm (fun acc iv => let* st := dw_state_at false (co_w c) (fst iv) 0 in inner_predict (co_cfg c) acc (snd iv) st) l acc =
     foldm (fun acc iv => let* st := dw_state_at false (co_w c') (fst iv) 0 in inner_predict (co_cfg c') acc (snd iv) st) (map (ref ix va) l) acc).
  { clear Q a b. induction l as [|(i & x) l IH]; intros acc; cbn [foldm map]; auto. unfold ref at 1 2. cbn [fst snd].
    destruct (state_z _ _ i (cz_w _ _ C)) as [st st' S| |]; cbn [bind]; auto. rewrite (cz_cfg _ _ C), (IP _ acc x i st st' S).
    destruct (inner_predict (co_cfg c) acc x st); cbn [bind]; auto. rewrite IH. now rewrite (cz_cfg _ _ C). }
  rewrite E. clear E. apply orel_eq. intros pn. rewrite (cz_st _ _ C), (cz_min _ _ C), (cz_max _ _ C). apply orel_eq. intros ms. apply orel_eq. intros p.
  constructor. split; [reflexivity|]. cbn [snd]. split; cbn [co_w co_cfg co_states co_avg co_min co_max co_loss co_pairs co_triples co_bits co_const]; try apply C; auto.
Qed.
Lemma update_z : forall c c' a b p v wt, crelz c c' -> zre ix va a b ->
  orel crelz (coin_update false c a p v wt) (coin_update false c' b p v wt).
Proof.
  intros c c' a b p v wt C Q. unfold coin_update. destruct (feats_z _ _ _ _ C Q) as [l l' ->| |]; cbn [bind]; try constructor.
  rewrite (cz_loss _ _ C), (cz_min _ _ C), (cz_max _ _ C), (cz_avg _ _ C), (cz_cfg _ _ C).
  set (u := f_mul O _ wt).
  assert (E : forall w w', wrelz w w' -> orel wrelz (foldm (fun w iv => dw_state_upd false w (fst iv) 0 (inner_update (co_cfg c) (co_avg c) u (snd iv))) l w)
     (foldm (fun w iv => dw_state_upd false w (fst iv) 0 (inner_update (co_cfg c) (co_avg c) u (snd iv))) (map (ref ix va) l) w')).
  { clear Q a b. induction l as [|(i & x) l IH]; intros w w' W; cbn [foldm map]; [now constructor|]. unfold ref at 1 2. cbn [fst snd].
    eapply orel_bind; [apply upd_z; [exact W|]|intros; now apply IH]. intros st st' S. now apply IU. }
  eapply orel_bind; [apply E; exact (cz_w _ _ C)|]. intros w w' W. constructor.
  split; cbn [co_w co_cfg co_states co_avg co_min co_max co_loss co_pairs co_triples co_bits co_const]; try apply C; auto.
Qed.
Lemma learn_cz : forall c c' a b v wt, crelz c c' -> zre ix va a b -> orel crelz (coin_learn false c a v wt) (coin_learn false c' b v wt).
Proof.
  intros c c' a b v wt C Q. unfold coin_learn.
  assert (C' : crelz (coin_range c v) (coin_range c' v)).
  { unfold coin_range. rewrite (cz_min _ _ C), (cz_max _ _ C).
    split; cbn [co_w co_cfg co_states co_avg co_min co_max co_loss co_pairs co_triples co_bits co_const]; try apply C; auto. }
  eapply orel_bind; [apply betting_z; eassumption|]. intros (p & c1) (p' & c1') (E1 & E2). cbn [fst snd] in *. subst p'. now apply update_z.
Qed.
End Coin.

(** ** sequences of calls *)
Section Calls.
Context {O : FOps} (ix : N -> N) (va : N -> O -> O) (C : coin O -> coin O -> Prop) (sens : Prop).
Context (CP : forall c c' a b, C c c' -> zre ix va a b -> coin_predict false c a = coin_predict false c' b).
Context (CL : forall c c' a b v w, C c c' -> zre ix va a b -> orel C (coin_learn false c a v w) (coin_learn false c' b v w)).
Context (CS : sens -> forall c c' a b, C c c' -> zre ix va a b -> coin_sensitivity false c a = coin_sensitivity false c' b).
Definition callz (c : call O) : Prop := match c with AskSensitivity f => sens /\ paired_fts f | _ => paired_call c end.
Lemma zfts_re : forall f, paired_fts f -> zfts (zre ix va) f (retell_fts ix va f).
Proof.
  intros [a|s x] P; simpl in *; [split; auto|]. destruct P as (P & Q). split.
  - destruct s; simpl; auto. split; auto.
  - induction x as [|a x IH]; simpl; constructor; [split; [apply P; now left|reflexivity]|]. apply IH. intros b Hb. apply P. now right.
Qed.
Lemma re_zfts : forall f g, zfts (zre ix va) f g -> g = retell_fts ix va f.
Proof.
  intros [a|s x] [b|t y]; simpl; try tauto; [intros (_ & ->); reflexivity|]. intros (Q & F). f_equal.
  - destruct s, t; simpl in *; try tauto. now destruct Q as (_ & ->).
  - induction F as [|a b x y (_ & ->) F IH]; simpl; congruence.
Qed.
Lemma sens_z : sens -> forall n (r r' : red O n) f g, rrelz C n r r' -> zfts (zre ix va) f g -> sensitivity false n r f = sensitivity false n r' g.
Proof.
  intros Hs. induction n as [|n IH]; intros r r' f g H Q; cbn [sensitivity].
  - destruct f as [a|s x], g as [b|t y]; simpl in Q; try tauto; simpl as_simple; cbn [bind]; auto. apply (CS Hs); auto. apply H.
  - apply IH; auto. apply H.
Qed.
Lemma answers_z : forall n cs (r r' : red O n), rrelz C n r r' -> Forall callz cs ->
  answers false r' (map (retell_call ix va) cs) = map (retell_answer ix va) (answers false r cs).
Proof.
  intros n. induction cs as [|c cs IH]; intros r r' H F; [reflexivity|]. inversion F as [|? ? F1 F2]; subst.
  destruct c as [f|f lb|f lb|f]; cbn [answers map retell_call].
  - unfold ws_predict. pose proof (predict_z2 _ (zre_append ix va) (zre_remove ix va) C CP n r r' f _ 0 0 H (zfts_re f F1)) as L.
    destruct L as [((p & f') & d') ((q & g') & e') (E1 & E2 & E3)| |]; cbn [bind map retell_answer]; auto.
    cbn [fst snd] in E1, E2, E3. subst q. rewrite (re_zfts _ _ E2). f_equal. now apply IH.
  - unfold ws_learn. pose proof (learn_z2 _ (zre_append ix va) (zre_remove ix va) C CL n r r' f _ lb 0 0 H (zfts_re f F1)) as L.
    destruct L as [((p & f') & d') ((q & g') & e') (E1 & E2 & E3)| |]; cbn [bind map retell_answer]; auto.
    cbn [fst snd] in E1, E2, E3. rewrite (re_zfts _ _ E2). f_equal. now apply IH.
  - unfold ws_ptl. pose proof (ptl_z2 _ (zre_append ix va) (zre_remove ix va) C CP CL n r r' f _ lb 0 0 H (zfts_re f F1)) as L.
    destruct L as [(((p & x) & f') & d') (((q & y) & g') & e') (E1 & E2 & E3)| |]; cbn [bind map retell_answer]; auto.
    destruct E1 as (E1 & E4). cbn [fst snd] in E1, E2, E3, E4. subst q. rewrite (re_zfts _ _ E2). f_equal. now apply IH.
  - destruct F1 as (Hs & F1). rewrite <- (sens_z Hs n r r' f _ H (zfts_re f F1)). destruct (sensitivity false n r f); cbn [map retell_answer]; auto. f_equal. now apply IH.
Qed.
End Calls.

(** ** a new workspace *)
Section New.
Context {O : FOps} (H : hasher) (gc : gconfig) (ix : N -> N) (va : N -> O -> O) (fac : N -> nat -> O -> O).
Context (B : gc_bits gc < 32) (NI : gc_inter gc = []) (RN : renaming gc ix) (V1 : gc_const gc = true -> va (2 ^ gc_bits gc / 2) f1 = f1) (F0 : forall i n, fac i n f0 = f0).
Lemma new_crelz : forall (c : rcfg O) R0, ws_new H false gc c = Ok R0 ->
  crelz ix va fac (bottom (projT1 R0) (projT2 R0)) (bottom (projT1 R0) (projT2 R0)).
Proof.
  intros c R0 E. unfold ws_new in E. destruct (create_inter _ _ _ _ _ _ E) as (S & A1 & A2). destruct (create_coin _ _ _ _ _ _ E) as (cfg & N).
  set (k := bottom (projT1 R0) (projT2 R0)) in *. rewrite NI in S.
  assert (Ps : co_pairs k = [] /\ co_triples k = []) by (inversion S; auto). destruct Ps as (Ps & Ts).
  assert (M1 : dw_msize (co_w k) = 1).
  { unfold coin_new in N. binv N. match type of N with (let '(_, _) := ?b in _) = _ => destruct b end. binv N. binv N. inversion N as [N1].
    cbn [co_w]. unfold dw_new in B2. binv B2. binv B2. binv B2. match type of B2 with (if ?b then _ else _) = _ => destruct b end; [discriminate|].
    binv B2. binv B2. inversion B2; subst. reflexivity. }
  apply coin_new_wf in N; [|lia]. destruct N as (W & Fs & _ & _ & _ & _ & Zr).
  unfold bits_to_max_feature_index in Fs. rewrite (proj2 (N.ltb_lt _ _) B) in Fs. inversion Fs as [Fs'].
  pose proof (cw_wf _ _ W) as Wf. destruct Wf as (_ & _ & _ & _ & _ & _ & Ms & Ss & Ln). rewrite <- Fs', M1, (cw_ss _ _ W) in *.
  change (N.size (1 - 1)) with 0 in *. change (N.size (6 - 1)) with 3 in *.
  assert (Sz : 2 ^ N.size (2 ^ gc_bits gc - 1) = 2 ^ gc_bits gc).
  { clear - B. destruct (N.eq_dec (gc_bits gc) 0) as [->|Q]; [reflexivity|]. f_equal.
    assert (P : 2 ^ 1 <= 2 ^ gc_bits gc) by (apply N.pow_le_mono_r; lia). change (2 ^ 1) with 2 in P.
    rewrite N.size_log2 by lia. rewrite <- N.pred_sub, N.log2_pred_pow2 by lia. lia. }
  rewrite Sz, Ms, Ss in Ln. change (2 ^ 0) with 1 in Ln. change (2 ^ 3) with 8 in Ln.
  destruct RN as (_ & RN2 & RN3).
  assert (Pos : forall i, pos (co_w k) i = (8 * N.to_nat i)%nat).
  { intros i. unfold pos. rewrite cell_eq, Ms, Ss. change (2 ^ 0) with 1. change (2 ^ 3) with 8. lia. }
  split; auto.
  - split; auto.
    + exact (cw_ss _ _ W).
    + rewrite Ss. discriminate.
    + intros i. rewrite !Pos. pose proof (RN2 i). lia.
    + intros i. rewrite !Pos. pose proof (RN2 i). lia.
    + intros i n _. rewrite Zr, !nth_repeat_f0. symmetry. apply F0.
  - intros Kc i Ei. rewrite A1 in Ei. rewrite A2 in Kc. unfold constant_feature_index, bits_to_max_feature_index in Ei.
    rewrite (proj2 (N.ltb_lt _ _) B) in Ei. cbn [bind] in Ei. inversion Ei; subst. auto.
Qed.
End New.

(** ** other indices, in any arithmetic *)
Section Rename.
Context {O : FOps}.
Definition same_va (_ : N) (x : O) : O := x.
Definition same_fac (_ : N) (_ : nat) (x : O) : O := x.
Lemma same_srel : forall i st st', srelz same_fac i st st' -> st' = st.
Proof. intros i st st' (L1 & L2 & E). apply (nth_ext _ _ f0 f0); [congruence|]. intros n Hn. apply E. lia. Qed.
Lemma same_self : forall i st, length st = 6%nat -> srelz same_fac i st st.
Proof. intros i st L. split; auto. Qed.
Lemma same_update : forall cfg avg u x i st st', srelz same_fac i st st' ->
  orel (srelz same_fac i) (inner_update cfg avg u x st) (inner_update cfg avg u (same_va i x) st').
Proof.
  intros cfg avg u x i st st' Q. rewrite (same_srel _ _ _ Q). destruct Q as (L & _). unfold same_va, inner_update. rewrite L. cbn [Nat.eqb].
  constructor. apply same_self. reflexivity.
Qed.
Lemma same_sens : forall (ix : N -> N) c c' a b, crelz ix same_va same_fac c c' -> zre ix same_va a b -> coin_sensitivity false c a = coin_sensitivity false c' b.
Proof.
  intros ix c c' a b C Q. unfold coin_sensitivity. destruct (feats_z _ _ _ _ _ _ _ C Q) as [l l' ->| |]; cbn [bind]; auto.
  generalize (@f0 O). clear Q a b. induction l as [|(i & x) l IH]; intros acc; cbn [foldm map]; auto. unfold ref at 1 2. cbn [fst snd].
  destruct (state_z ix same_fac _ _ i (cz_w _ _ _ _ _ C)) as [st st' S| |]; cbn [bind]; auto. rewrite (same_srel _ _ _ S), (cz_cfg _ _ _ _ _ C). unfold same_va at 1.
  destruct (inner_sensitivity (co_cfg c) acc x st); cbn [bind]; auto. rewrite <- (cz_cfg _ _ _ _ _ C). rewrite <- IH. now rewrite (cz_cfg _ _ _ _ _ C).
Qed.
Lemma renamed_answers : forall H gc ix (c : rcfg O) R0 cs, gc_bits gc < 32 -> gc_inter gc = [] -> renaming gc ix ->
  ws_new H false gc c = Ok R0 -> elem_free (projT1 R0) (projT2 R0) -> Forall paired_any cs ->
  answers false (projT2 R0) (map (retell_call ix (fun _ x => x)) cs) = map (retell_answer ix (fun _ x => x)) (answers false (projT2 R0) cs).
Proof.
  intros H gc ix c R0 cs B NI RN E EF F. pose proof (proj1 RN) as INJ.
  assert (K := new_crelz H gc ix same_va same_fac B NI RN (fun _ => eq_refl) (fun _ _ => eq_refl) c R0 E).
  assert (IP : forall cfg (acc : O * O) x i st st', srelz same_fac i st st' -> inner_predict cfg acc (same_va i x) st' = inner_predict cfg acc x st)
    by (intros cfg acc x i st st' Q; now rewrite (same_srel _ _ _ Q)).
  apply (answers_z ix same_va (crelz ix same_va same_fac) True).
  - intros c0 c' a b. apply predict_cz. reflexivity.
  - intros c0 c' a b v w. apply (learn_cz ix same_va same_fac INJ IP same_update).
  - intros _ c0 c' a b. apply same_sens.
  - apply free_rrelz; auto.
  - eapply Forall_impl; [|exact F]. intros [f|f lb|f lb|f]; simpl; auto.
Qed.
End Rename.
