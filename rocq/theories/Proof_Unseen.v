(** Features that no training example had (C99). *)
From Coq Require Import List NArith ZArith PeanoNat Bool Lia Permutation Reals Lra.
From Verif Require Import Base FloatOps FloatR FloatB32 Model_Hash Model_Features Model_Weights Model_Loss Model_Interactions
  Model_Types Model_Explore Model_Coin Model_Stack Model_Factory Spec_Foreach Spec_Features Spec_Weights Spec_Coin Spec_Stack Spec_Reductions Spec_Total Spec_Order Spec_Inter Spec_Empty Spec_Delegate Spec_Shuffle Spec_Merge Spec_Builds Spec_Elem Spec_ElemStack Spec_Trained Spec_Unseen
  Proof_Features Proof_Foreach Proof_Weights Proof_WeightsProps Proof_FloatOrder Proof_Coin Proof_StackRestore Proof_StackShape Proof_StackProps Proof_StackCong Proof_StackRel Proof_Loose Proof_Total Proof_Order Proof_Inter Proof_Empty Proof_EmptyProps Proof_Context Proof_Elem Proof_ElemStack Proof_Trained Proof_Shuffle Proof_Builds Proof_Merge.
Import ListNotations.
Open Scope N_scope.

(** ** weights of indices nothing was seen at *)
Section Any.
Context {O : FOps} (FO : ford O).
Lemma shape_feats : forall n (r r' : red O n) x, shape n r r' -> coin_feats false (bottom n r') x = coin_feats false (bottom n r) x.
Proof.
  induction n as [|n IH]; intros r r' x Sh.
  - destruct Sh as (_ & _ & _ & _ & _ & P & T & B & C). simpl in *. unfold coin_feats. now rewrite P, T, B, C.
  - destruct Sh as (_ & _ & Sh). simpl in *. now apply IH.
Qed.
Lemma learn_all_keep : forall nb n h (r r' : red O n), einv nb n r -> learn_all false r h = Ok r' -> einv nb n r' /\ shape n r r'.
Proof.
  intros nb n h. induction h as [|(f & lb) h IH]; intros r r' I L; cbn [learn_all] in L.
  - inversion L; subst. split; auto. apply shape_refl.
  - binv L. unfold ws_learn in B. binv B. destruct v0 as ((r1 & g) & d1). inversion B; subst. destruct (einv_step FO _ _ _ _ _ _ _ _ _ I B0) as (I' & Sh).
    destruct (IH r1 r' I' L) as (I2 & S2). split; auto. eapply shape_trans; eauto.
Qed.
Lemma unseen_zero : forall H gc (c : rcfg O) R h tss r, ws_new H false gc c = Ok R -> gc_bits gc < 32 ->
  Forall2 (shows (projT2 R)) h tss -> learn_all false (projT2 R) h = Ok r ->
  cwf false (bottom _ r) /\ dw_fsize (co_w (bottom _ r)) = 2 ^ gc_bits gc /\
  (forall x, coin_feats false (bottom _ r) x = coin_feats false (bottom _ (projT2 R)) x) /\
  forall i, i < 2 ^ gc_bits gc -> ~ seen (bottom _ (projT2 R)) (concat tss) i -> dw_weight_at false (co_w (bottom _ r)) i 0 = Ok f0.
Proof.
  intros H gc c R h tss r E Hb F L.
  destruct (reach_einv FO H gc c R (projT2 R) E (reach_refl _ _) Hb) as (I & _).
  destruct (create_coin _ _ _ _ _ _ E) as (cfg & NC). destruct (coin_new_wf _ _ _ _ _ _ NC ltac:(lia)) as (W0 & _ & _ & _ & _ & _ & Z).
  destruct (learn_all_keep _ _ h _ _ I L) as ((_ & _ & _ & C) & Sh). pose proof C as (W & Fs & _).
  split; [exact W|]. split; [exact Fs|]. split; [intros x; now apply shape_feats|]. intros i Hi Ns.
  assert (Id : idle (bottom _ (projT2 R)) (concat tss) i) by (intros t Ht U; apply Ns; exists t; auto).
  destruct (learn_all_rest FO (gc_bits gc) _ i Hb Hi h _ _ tss I F L Id) as (_ & _ & A). unfold at_rest in A.
  rewrite <- Fs in Hi. rewrite (weight_ok _ _ _ W Hi). rewrite A. f_equal.
  destruct (read (co_w (bottom _ (projT2 R))) i 0) as [|x l] eqn:Q; [reflexivity|]. cbn [nth]. apply (read_zero _ _ i Z). rewrite Q. now left.
Qed.
End Any.

(** ** exact arithmetic *)
Definition pick (i : N) (j : N) : R := if N.eqb j i then 1%R else 0%R.
Lemma value_lin : forall i (l : list (N * RF)), value_at i l = lin (pick i) l.
Proof.
  intros i l. induction l as [|(j & v) l IH]; [reflexivity|]. cbn [lin]. unfold pick at 1. rewrite <- IH.
  change (value_at i ((j, v) :: l)) with (if N.eqb j i then (v + value_at i l)%R else value_at i l). destruct (N.eqb j i); lra.
Qed.
Lemma value_perm : forall i (l k : list (N * RF)), Permutation l k -> value_at i l = value_at i k.
Proof. intros i l k P. rewrite !value_lin. now apply lin_perm. Qed.
Lemma value_app : forall i (l k : list (N * RF)), value_at i (l ++ k) = (value_at i l + value_at i k)%R.
Proof. intros i l k. rewrite !value_lin. apply lin_app. Qed.
Lemma lin_supported : forall phi (l k : list (N * RF)), (forall i, In i (ind l ++ ind k) -> phi i = 0%R \/ value_at i l = value_at i k) -> lin phi l = lin phi k.
Proof.
  intros phi l k E. set (K := nodup N.eq_dec (ind l ++ ind k)).
  rewrite (lin_keys phi K l), (lin_keys phi K k); try apply NoDup_nodup; try (intros i Hi; apply nodup_In, in_app_iff; auto).
  assert (E' : forall i, In i K -> phi i = 0%R \/ value_at i l = value_at i k) by (intros i Hi; apply E; now apply nodup_In in Hi).
  clearbody K. induction K as [|i K IK]; [reflexivity|]. cbn [fold_right]. rewrite IK by (intros j Hj; apply E'; now right).
  destruct (E' i (or_introl eq_refl)) as [-> | ->]; lra.
Qed.

Section Names.
Lemma ns_dec : forall u v : namespace, {u = v} + {u <> v}.
Proof. intros u v. destruct (ns_eqb u v) eqn:Q; [left; now apply ns_eqb_eq|right]. intros ->. now rewrite ns_eqb_refl in Q. Qed.
Lemma all_in : forall (x : sfeats RF) p, fwf x -> quiet x -> (In p (sf_all x) <-> exists k, In p (feats_of k x)).
Proof.
  intros x p W Q. split.
  - intros Hp. assert (P := sf_all_perm x (nodup ns_dec (map fst x)) (proj1 W) (NoDup_nodup _ _) ltac:(intros k Hk; now apply nodup_In)).
    apply (Permutation_in _ P) in Hp. apply in_flat_map in Hp. destruct Hp as (k & _ & Hp). exists k. now rewrite quiet_at in Hp.
  - intros (k & Hp). assert (P := sf_all_perm x (nodup ns_dec (k :: map fst x)) (proj1 W) (NoDup_nodup _ _) ltac:(intros j Hj; apply nodup_In; now right)).
    apply (Permutation_in _ (Permutation_sym P)). apply in_flat_map. exists k. split; [apply nodup_In; now left|]. now rewrite quiet_at.
Qed.
Lemma below_append : forall n (a s x : sfeats RF), sound a -> sound s -> sf_append a s = Ok x -> below n a -> below n s -> below n x.
Proof.
  intros n a s x Sa Ss X Ba Bs i v Hin. destruct (sound_quiet a Sa) as (Wa & Qa), (sound_quiet s Ss) as (Ws & Qs).
  destruct (append_feats a s x Wa Ws Qa X) as (Wx & Qx & Fx). apply all_in in Hin; auto. destruct Hin as (k & Hin). rewrite Fx in Hin.
  apply in_app_iff in Hin. destruct Hin as [Hin|Hin]; [apply (Ba i v)|apply (Bs i v)]; apply all_in; eauto.
Qed.
Lemma all_value : forall i (x y : sfeats RF), fwf x -> fwf y -> quiet x -> quiet y ->
  (forall k, value_at i (feats_of k x) = value_at i (feats_of k y)) -> value_at i (sf_all x) = value_at i (sf_all y).
Proof.
  intros i x y Wx Wy Qx Qy E. set (K := nodup ns_dec (map fst x ++ map fst y)).
  rewrite (value_perm i _ _ (sf_all_perm x K (proj1 Wx) (NoDup_nodup _ _) ltac:(intros ? ?; apply nodup_In; rewrite !in_app_iff; auto))).
  rewrite (value_perm i _ _ (sf_all_perm y K (proj1 Wy) (NoDup_nodup _ _) ltac:(intros ? ?; apply nodup_In; rewrite !in_app_iff; auto))).
  clearbody K. induction K as [|k K IK]; [reflexivity|]. cbn [flat_map]. rewrite !value_app, IK, !quiet_at by assumption. now rewrite E.
Qed.
End Names.

Section Exact.
Context (H : hasher) (gc : gconfig) (NR : no_repeat H gc).
Context (c0 : coin RF) (ts : list (sfeats RF)).
Definition rested (c : coin RF) : Prop := cwf false c /\ dw_fsize (co_w c) = 2 ^ gc_bits gc /\
  (forall x, coin_feats false c x = coin_feats false c0 x) /\
  forall i, i < 2 ^ gc_bits gc -> ~ seen c0 ts i -> dw_weight_at false (co_w c) i 0 = Ok f0.
Definition zu (a b : sfeats RF) : Prop := below (2 ^ gc_bits gc) a /\ below (2 ^ gc_bits gc) b /\ like c0 (seen c0 ts) a b.
Lemma zu_predict : forall c a b p, rested c -> zu a b -> coin_predict false c a = Ok p -> coin_predict false c b = Ok p.
Proof.
  intros c a b p (W & Fs & Fe & U) (Ba & Bb & Lk) P. rewrite <- Fs in Ba, Bb.
  destruct (feats_ok false c a W Ba) as (l & L & Il), (feats_ok false c b W Bb) as (k & K & Ik). unfold coin_predict in *. rewrite L in P. rewrite K. cbn [bind] in *.
  destruct (coin_dot false c l) as [q|?|?] eqn:D; try discriminate. replace (coin_dot false c k) with (Ok q : out RF); [exact P|]. symmetry. clear P.
  unfold coin_dot in *. destruct (dot_lin c l _ _ D) as (_ & V).
  destruct (dot_back c k f0) as (q' & D'). { intros i Hi. apply in_map_iff in Hi. destruct Hi as ((j & v) & <- & Hi). eexists. exact (weight_ok _ _ _ W (Ik _ _ Hi)). }
  rewrite D'. destruct (dot_lin c k _ _ D') as (_ & V'). f_equal.
  assert (F : forall i w, dw_weight_at false (co_w c) i 0 = Ok w -> phi_of c i = w) by (intros i w X; unfold phi_of; now rewrite X).
  rewrite (V _ F), (V' _ F). f_equal. symmetry. apply lin_supported. intros i Hi.
  destruct (idle_dec c0 ts i) as [Id|S].
  - left. assert (Bi : i < 2 ^ gc_bits gc).
    { rewrite <- Fs. apply in_app_iff in Hi. destruct Hi as [Hi|Hi]; apply in_map_iff in Hi; destruct Hi as ((j & v) & <- & Hi); eauto. }
    unfold phi_of. rewrite (U i Bi); [cbn; lra|]. intros (t & Ht & X). exact (Id t Ht X).
  - right. rewrite Fe in L, K. unfold coin_feats in L, K. exact (Lk l k L K i S).
Qed.
Lemma like_perm : forall x y x' y', good H gc c0 -> zp x' x -> zp y' y -> like c0 (seen c0 ts) x y -> like c0 (seen c0 ts) x' y'.
Proof.
  intros x y x' y' G Zx Zy Lk l k L K i Hi. destruct (zp_feats H gc NR c0 _ _ _ G Zx L) as (l' & L' & Pl). destruct (zp_feats H gc NR c0 _ _ _ G Zy K) as (k' & K' & Pk).
  rewrite (value_perm i _ _ Pl), (value_perm i _ _ Pk). exact (Lk l' k' L' K' i Hi).
Qed.
Lemma fts_zu : forall f g, good H gc c0 -> sound_fts f -> sound_fts g -> all_below (2 ^ gc_bits gc) f -> all_below (2 ^ gc_bits gc) g ->
  like_fts c0 (seen c0 ts) f g -> zf zu f g.
Proof.
  intros [a|s x] [b|t y] G Sf Sg Bf Bg Lk; simpl in Lk; try tauto.
  - split; [apply Bf; now left|]. split; [apply Bg; now left|exact Lk].
  - destruct Sf as (Sx & Ss), Sg as (Sy & St), Lk as (Q & P). split.
    { destruct s, t; simpl; try tauto; [split; now apply sound_esim|destruct Q as [_ Q]; discriminate (Q eq_refl)|destruct Q as [Q _]; discriminate (Q eq_refl)]. }
    assert (Bx : forall a, In a x -> below (2 ^ gc_bits gc) a) by (intros a Ha; apply Bf; destruct s; simpl; auto).
    assert (By : forall a, In a y -> below (2 ^ gc_bits gc) a) by (intros a Ha; apply Bg; destruct t; simpl; auto).
    assert (Bs : forall a, s = Some a -> below (2 ^ gc_bits gc) a) by (intros a ->; apply Bf; now left).
    assert (Bt : forall a, t = Some a -> below (2 ^ gc_bits gc) a) by (intros a ->; apply Bg; now left).
    clear Bf Bg. induction P as [|a b x y Pab P IH]; constructor.
    + destruct s as [s|], t as [t|]; simpl; [| destruct Q as [_ Q]; discriminate (Q eq_refl) | destruct Q as [Q _]; discriminate (Q eq_refl) |].
      * assert (Sa : sound a) by (apply Sx; now left). assert (Sb : sound b) by (apply Sy; now left).
        assert (Ba : below (2 ^ gc_bits gc) a) by (apply Bx; now left). assert (Bb : below (2 ^ gc_bits gc) b) by (apply By; now left).
        assert (Bss := Bs s eq_refl). assert (Btt := Bt t eq_refl).
        repeat (split; [apply sound_esim; auto|]). split.
        -- intros u v U V. split; [exact (below_append _ a s u Sa Ss U Ba Bss)|]. split; [exact (below_append _ b t v Sb St V Bb Btt)|]. exact (Pab u v U V).
        -- intros u v U V. split; [exact (below_append _ s a u Ss Sa U Bss Ba)|]. split; [exact (below_append _ t b v St Sb V Btt Bb)|].
           destruct (esim_append a s (sound_esim a Sa) (sound_esim s Ss)) as (u' & U'). destruct (esim_append b t (sound_esim b Sb) (sound_esim t St)) as (v' & V').
           apply (like_perm u' v'); [exact G|exact (swap_zp s a u u' Ss Sa U U')|exact (swap_zp t b v v' St Sb V V')|exact (Pab u' v' U' V')].
      * split; [apply Bx; now left|]. split; [apply By; now left|exact (Pab a b eq_refl eq_refl)].
    + apply IH; intros z Hz; [apply Sx|apply Sy|apply Bx|apply By]; now right.
Qed.
End Exact.

Lemma unseen_predict : forall H gc (NR : no_repeat H gc) (c : rcfg RF) R0 h tss r f g p f',
  ws_new H false gc c = Ok R0 -> gc_bits gc < 32 -> elem_free (projT1 R0) (projT2 R0) ->
  Forall2 (shows (projT2 R0)) h tss -> learn_all false (projT2 R0) h = Ok r ->
  sound_fts f -> sound_fts g -> all_below (2 ^ gc_bits gc) f -> all_below (2 ^ gc_bits gc) g ->
  like_fts (bottom _ (projT2 R0)) (seen (bottom _ (projT2 R0)) (concat tss)) f g ->
  ws_predict false r f = Ok (p, f') -> exists g', ws_predict false r g = Ok (p, g').
Proof.
  intros H gc NR c R0 h tss r f g p f' E Hb EF F L Sf Sg Bf Bg Lk W.
  pose proof (unseen_zero RF_ford H gc c R0 h tss r E Hb F L) as U.
  destruct (reach_einv RF_ford H gc c R0 (projT2 R0) E (reach_refl _ _) Hb) as (I & _). destruct (learn_all_keep RF_ford _ _ h _ _ I L) as (_ & Sh).
  unfold ws_predict in *. binv W. destruct v as ((p1 & f1) & d1). inversion W; subst.
  destruct (predict_z _ (rested gc (bottom _ (projT2 R0)) (concat tss)) (zu_predict gc _ _) _ r f g 0%N 0%N (free_shape _ _ _ Sh EF) U
    (fts_zu H gc NR _ _ f g (new_good H gc c R0 _ E (reach_refl _ _)) Sf Sg Bf Bg Lk) _ B) as (((q & g1) & e1) & E2 & E1 & _ & _ & _).
  cbn [fst snd] in E1. subst. rewrite E2. cbn [bind]. eauto.
Qed.
