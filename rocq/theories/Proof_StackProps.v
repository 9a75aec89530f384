(** C02, C03, C22, C37, C43 for workspaces. *)
From Coq Require Import List NArith ZArith Bool Lia.
From Verif Require Import Base FloatOps FloatB32 Model_Hash Model_Features Model_Weights Model_Loss Model_Interactions
  Model_Types Model_Explore Model_Coin Model_Stack Model_Factory Proof_Features Spec_Features Proof_FeaturesHist
  Spec_Stack Proof_StackCong Proof_StackRestore Proof_StackPtl Proof_StackShape.
Import ListNotations.

Section P.
Context {O : FOps}.
Implicit Types (f g : features O).

Lemma built_wf : forall m : sfeats O, built m -> fwf m.
Proof. intros m (dbg & h & st & i & E & ->). pose proof (fops_wf _ _ _ _ stwf0 E) as W. apply W. Qed.

Lemma no_composite_noraw : forall m : sfeats O, fwf m -> no_composite m -> noraw m.
Proof.
  intros m W N k K. destruct k as [h|h|]; simpl in K; try tauto. unfold vget.
  destruct (fm_get (NsRawHash h) m) as [s|] eqn:E; auto. destruct (N h s E) as (A & Z).
  assert (Q : sfn_size s = 0%nat).
  { destruct (Nat.eq_dec (sfn_size s) 0) as [|Q]; auto. exfalso. apply (iter_size (NsRawHash h)) in Q; [now apply Q|]. now apply W. }
  unfold svis. now rewrite A, Q.
Qed.

Lemma separable_restorable : forall a b : sfeats O, fwf a -> separable a b ->
  forall k t, fm_get k b = Some t -> sfn_active t = true -> restorable k a.
Proof.
  intros a b W S k t E A. apply proper_restorable; auto. apply S.
  rewrite (proj2 (fm_get_active b k t)); [discriminate|]; auto.
Qed.

Lemma wf_tidy_good : forall f, ftwf f -> tidy f -> good f.
Proof.
  intros [a|s x]; simpl; auto. intros (Ws & Wx) (Tx & Ts). split.
  - apply Forall_forall. intros a Ha. eapply Forall_forall in Wx; eauto. split; auto.
    apply no_composite_noraw; auto.
  - destruct s as [sh|]; auto. destruct Ts as (Tsh & T). split; auto. split; [now apply no_composite_noraw|].
    intros a Ha. destruct (T a Ha) as (T1 & T2). eapply Forall_forall in Wx; eauto.
    split; intros; eapply separable_restorable; eauto.
Qed.

Lemma built_ftwf : forall f, built_fts f -> ftwf f.
Proof.
  intros [a|s x]; simpl; [apply built_wf|]. intros (H1 & H2). split.
  - destruct s; auto using built_wf.
  - apply Forall_forall. auto using built_wf.
Qed.

Lemma plain_good : forall f, plain f -> good f.
Proof. intros f (B & T). apply wf_tidy_good; auto. now apply built_ftwf. Qed.

Lemma fr_ftsim : forall f f', ftwf f -> tidy f -> fr f f' -> ftsim f f'.
Proof.
  intros [a|s x] [a'|s' x']; simpl; try tauto. intros W N R. apply rr_fsim; auto.
  now apply no_composite_noraw.
Qed.

Lemma F2_view : forall x y, Forall2 (@fsim O) x y -> Forall2 same_view x y.
Proof. intros x y H; induction H; constructor; auto using fsim_view. Qed.

Lemma ftsim_same : forall f g, ftsim f g -> fts_same f g.
Proof.
  intros [a|[s|] x] [b|[t|] y]; simpl; try tauto.
  - apply fsim_view.
  - intros (H1 & H2); split; [now apply fsim_view|now apply F2_view].
  - intros (H1 & H2); split; auto. now apply F2_view.
Qed.

(** created stacks *)
Lemma nsdef_not_raw : forall H seed d, ~ israw (nsdef_namespace H seed d).
Proof.
  intros H seed d. unfold nsdef_namespace. destruct d; simpl; tauto.
Qed.

Lemma add_level_ok : forall nma td (k : kind O) ch R,
  add_level nma td k ch = Ok R ->
  R = existT (red O) (S (projT1 ch)) ((mkW td nma, k), projT2 ch) /\ td_bad td (any_types ch) = false.
Proof.
  intros nma td k ch R H. unfold add_level in H. destruct (td_bad td (any_types ch)); inversion H; auto.
Qed.

Lemma create_elems : forall H dbg gc nma (c : rcfg O) R, create H dbg gc nma c = Ok R -> elems_ok (projT1 R) (projT2 R).
Proof.
  induction c; intros R E; cbn [create] in E; try discriminate;
    try (binv E; apply add_level_ok in E; destruct E as (-> & _); cbn [projT1 projT2]; split; [|apply IHc; auto]; simpl; auto using nsdef_not_raw; fail).
  - binv E. inversion E; subst. exact I.
  - assert (E' : (let* ch := create H dbg gc nma c in add_level nma td_explore (KSquareCb ueps gscale gexp 0) ch) = Ok R).
    { destruct c; auto. destruct ty; auto. discriminate. }
    clear E. rename E' into E. binv E. apply add_level_ok in E. destruct E as (-> & _). split; simpl; auto.
Qed.

Lemma reach_shape : forall dbg n (r0 r : red O n), reach dbg r0 r -> shape n r0 r.
Proof.
  intros dbg n r0 r H. induction H.
  - apply shape_refl.
  - unfold ws_learn in H0. binv H0. destruct v as ((r1 & g) & e). inversion H0; subst.
    eapply shape_trans; [exact IHreach|]. eapply learn_shape; eauto.
  - unfold ws_ptl in H0. binv H0. destruct v as (((p1 & r1) & g) & e). inversion H0; subst.
    eapply shape_trans; [exact IHreach|]. eapply ptl_shape; eauto.
Qed.

Lemma reach_elems : forall H dbg gc (c : rcfg O) R r,
  ws_new H dbg gc c = Ok R -> reach dbg (projT2 R) r -> elems_ok (projT1 R) r.
Proof.
  intros H dbg gc c R r E Q. eapply shape_elems_ok; [eapply reach_shape; exact Q|]. eapply create_elems; exact E.
Qed.

(** inverting the entry points *)
Lemma ws_predict_ok : forall dbg n (r : red O n) f p f', ws_predict dbg r f = Ok (p, f') <->
  predict dbg n r f 0 0 = Ok (p, f', 0%N).
Proof.
  intros dbg n r f p f'. unfold ws_predict. split; intros H.
  - binv H. destruct v as ((q & g) & e). inversion H; subst.
    rewrite B. pose proof (predict_d _ _ _ _ 0%N _ _ _ eq_refl B). now subst.
  - now rewrite H.
Qed.
Lemma ws_learn_ok : forall dbg n (r : red O n) f lb r' f', ws_learn dbg r f lb = Ok (r', f') <->
  learn dbg n r f lb 0 0 = Ok (r', f', 0%N).
Proof.
  intros dbg n r f lb p f'. unfold ws_learn. split; intros H.
  - binv H. destruct v as ((q & g) & e). inversion H; subst.
    rewrite B. pose proof (learn_d _ _ _ _ _ 0%N _ _ _ eq_refl B). now subst.
  - now rewrite H.
Qed.
Lemma ws_ptl_ok : forall dbg n (r : red O n) f lb p r' f', ws_ptl dbg r f lb = Ok (p, r', f') <->
  predict_then_learn dbg n r f lb 0 0 = Ok ((p, r'), f', 0%N).
Proof.
  intros dbg n r f lb p r' f'. unfold ws_ptl. split; intros H.
  - binv H. destruct v as (((q & s) & g) & e). inversion H; subst.
    rewrite B. pose proof (ptl_d _ _ _ _ _ 0%N _ _ _ eq_refl B). now subst.
  - now rewrite H.
Qed.

Definition wsim {X} (u v : X * features O) : Prop := fst u = fst v /\ ftsim (snd u) (snd v).

Lemma ws_predict_sim : forall dbg n (r : red O n) f g, ftsim f g -> orel wsim (ws_predict dbg r f) (ws_predict dbg r g).
Proof.
  intros dbg n r f g H. unfold ws_predict. eapply orel_bind; [apply predict_sim; exact H|].
  intros ((p & f') & d) ((q & g') & e) (E1 & E2 & E3). constructor. split; auto.
Qed.
Lemma ws_learn_sim : forall dbg n (r : red O n) f g lb, ftsim f g -> orel wsim (ws_learn dbg r f lb) (ws_learn dbg r g lb).
Proof.
  intros dbg n r f g lb H. unfold ws_learn. eapply orel_bind; [apply learn_sim; exact H|].
  intros ((p & f') & d) ((q & g') & e) (E1 & E2 & E3). constructor. split; auto.
Qed.
Lemma ws_ptl_sim : forall dbg n (r : red O n) f g lb, ftsim f g -> orel wsim (ws_ptl dbg r f lb) (ws_ptl dbg r g lb).
Proof.
  intros dbg n r f g lb H. unfold ws_ptl. eapply orel_bind; [apply ptl_sim; exact H|].
  intros (((p & r1) & f') & d) (((q & r2) & g') & e) (E1 & E2 & E3). simpl in *. inversion E1; subst. constructor. split; auto.
Qed.

Lemma ws_predict_restore : forall dbg n (r : red O n) f p f', elems_ok n r -> ftwf f -> tidy f ->
  ws_predict dbg r f = Ok (p, f') -> ftsim f f'.
Proof.
  intros dbg n r f p f' K W T H. apply ws_predict_ok in H. apply fr_ftsim; auto.
  eapply predict_restore; [exact K|now apply wf_tidy_good|exact H].
Qed.

(** ** C02 *)
Lemma features_restored : forall H dbg gc (c : rcfg O) R r f,
  ws_new H dbg gc c = Ok R -> reach dbg (projT2 R) r -> plain f ->
  (forall p f', ws_predict dbg r f = Ok (p, f') -> fts_same f f') /\
  (forall lb r' f', ws_learn dbg r f lb = Ok (r', f') -> fts_same f f') /\
  (forall lb p r' f', ws_ptl dbg r f lb = Ok (p, r', f') -> fts_same f f').
Proof.
  intros H dbg gc c R r f E Q P. pose proof (reach_elems _ _ _ _ _ _ E Q) as K.
  pose proof (plain_good f P) as G. destruct P as (B & T). apply built_ftwf in B.
  split; [|split].
  - intros p f' X. apply ftsim_same. eapply ws_predict_restore; eauto.
  - intros lb r' f' X. apply ws_learn_ok in X. apply ftsim_same, fr_ftsim; auto.
    eapply learn_restore; eauto.
  - intros lb p r' f' X. apply ws_ptl_ok in X.
    destruct (proj1 (ptl_ok dbg _ r f lb 0 K G eq_refl) _ _ _ _ X) as (f1 & f2 & E1 & E2 & S1 & S2).
    apply ftsim_same. eapply ftsim_trans; [|apply ftsim_sym; exact S1].
    apply fr_ftsim; auto. eapply predict_restore; eauto.
Qed.

(** ** C22 *)
Lemma ptl_is_predict_learn : forall H dbg gc (c : rcfg O) R r f lb,
  ws_new H dbg gc c = Ok R -> reach dbg (projT2 R) r -> plain f ->
  (forall p r' f', ws_ptl dbg r f lb = Ok (p, r', f') ->
     exists f1 f2, ws_predict dbg r f = Ok (p, f1) /\ ws_learn dbg r f lb = Ok (r', f2) /\
       fts_same f' f1 /\ fts_same f' f2) /\
  (forall p f1 r' f2, ws_predict dbg r f = Ok (p, f1) -> ws_learn dbg r f lb = Ok (r', f2) ->
     exists f', ws_ptl dbg r f lb = Ok (p, r', f') /\ fts_same f' f1 /\ fts_same f' f2).
Proof.
  intros H dbg gc c R r f lb E Q P. pose proof (reach_elems _ _ _ _ _ _ E Q) as K.
  pose proof (plain_good f P) as G. destruct (ptl_ok dbg _ r f lb 0 K G eq_refl) as (A & B). split.
  - intros p r' f' X. apply ws_ptl_ok in X. destruct (A _ _ _ _ X) as (f1 & f2 & E1 & E2 & S1 & S2).
    exists f1, f2. rewrite ws_predict_ok, ws_learn_ok. auto using ftsim_same.
  - intros p f1 r' f2 X Y. apply ws_predict_ok in X. apply ws_learn_ok in Y.
    destruct (B _ _ _ _ _ _ X Y) as (f' & E1 & S1 & S2). exists f'. rewrite ws_ptl_ok. auto using ftsim_same.
Qed.

(** ** C43 *)
Lemma offset_balanced : forall dbg n (r : red O n) f lb d, (d < 256)%N ->
  orel (fun u v => fst u = fst v /\ snd u = d /\ snd v = 0%N) (predict dbg n r f d 0) (predict dbg n r f 0 0) /\
  orel (fun u v => fst u = fst v /\ snd u = d /\ snd v = 0%N) (learn dbg n r f lb d 0) (learn dbg n r f lb 0 0) /\
  orel (fun u v => fst u = fst v /\ snd u = d /\ snd v = 0%N)
    (predict_then_learn dbg n r f lb d 0) (predict_then_learn dbg n r f lb 0 0).
Proof.
  intros dbg n r f lb d H. split; [|split]; [apply predict_dsim|apply learn_dsim|apply ptl_dsim]; auto; reflexivity.
Qed.

(** ** C03 and C37: programs *)
Definition pssim {n} (s t : pstate O n) : Prop :=
  stsim (ps_store s) (ps_store t) /\ ps_red s = ps_red t /\ ps_ptl s = ps_ptl t.

Lemma fts_of_sim : forall a b l, @stsim O a b -> ftsim (fts_of a l) (fts_of b l).
Proof.
  intros a b [i|[s|] xs] H; simpl; auto.
  - split; auto. induction xs; simpl; constructor; auto.
  - split; auto. induction xs; simpl; constructor; auto.
Qed.

Lemma put_list_sim : forall xs ys zs a b, @stsim O a b -> Forall2 fsim ys zs ->
  stsim (put_list a xs ys) (put_list b xs zs).
Proof.
  induction xs as [|i xs IH]; intros ys zs a b H K; simpl; auto.
  inversion K; subst; auto. apply IH; auto. now apply stsim_upd.
Qed.

Lemma put_back_sim : forall a b l f g, @stsim O a b -> ftsim f g -> stsim (put_back a l f) (put_back b l g).
Proof.
  intros a b [i|s xs] [u|t ys] [v|t' zs] H K; simpl in *; auto; try tauto.
  - now apply stsim_upd.
  - destruct K as (K1 & K2). apply put_list_sim; auto. destruct s, t, t'; simpl in *; auto; try tauto.
    now apply stsim_upd.
Qed.

Lemma stsim_sym : forall a b, @stsim O a b -> stsim b a.
Proof. intros a b H r. apply fsim_sym, H. Qed.
Lemma stsim_trans : forall a b c, @stsim O a b -> stsim b c -> stsim a c.
Proof. intros a b c H K r. eapply fsim_trans; [apply H|apply K]. Qed.

(** writing back what was read changes nothing *)
Lemma put_list_same : forall xs st a, @stsim O st a -> stsim st (put_list a xs (map st xs)).
Proof.
  induction xs as [|i xs IH]; intros st a H; simpl; auto. apply IH.
  intros j. unfold st_upd. destruct (Nat.eqb j i) eqn:E; [|apply H].
  apply Nat.eqb_eq in E; subst. apply fsim_refl, (H i).
Qed.
Lemma put_back_same : forall st l, @stwf O st -> stsim st (put_back st l (fts_of st l)).
Proof.
  intros st [i|s xs] W; simpl.
  - intros j. unfold st_upd. destruct (Nat.eqb j i) eqn:E; [|apply fsim_refl, W].
    apply Nat.eqb_eq in E; subst. apply fsim_refl, W.
  - apply put_list_same. destruct s as [i|]; simpl; [|now apply stsim_refl].
    intros j. unfold st_upd. destruct (Nat.eqb j i) eqn:E; [|apply fsim_refl, W].
    apply Nat.eqb_eq in E; subst. apply fsim_refl, W.
Qed.

Lemma pop_sim : forall dbg n o (s t : pstate O n), pssim s t -> ps_pred s = ps_pred t ->
  orel (fun s t => pssim s t /\ ps_pred s = ps_pred t) (pop_run dbg s o) (pop_run dbg t o).
Proof.
  intros dbg n o [st r pt pp] [st' r' pt' pp'] (H & E & E') E2. simpl in *. subst.
  destruct o; cbn [pop_run].
  - eapply orel_bind; [apply fop_sim; exact H|]. intros. constructor. split; [split|]; simpl; auto.
  - eapply orel_bind; [apply ws_predict_sim, fts_of_sim; exact H|]. intros (p & f') (q & g') (F1 & F2). simpl in *; subst.
    constructor. split; [split|]; simpl; auto. now apply put_back_sim.
  - eapply orel_bind; [apply ws_learn_sim, fts_of_sim; exact H|]. intros (p & f') (q & g') (F1 & F2). simpl in *; subst.
    constructor. split; [split|]; simpl; auto. now apply put_back_sim.
  - eapply orel_bind; [apply ws_ptl_sim, fts_of_sim; exact H|]. intros ((p & r1) & f') ((q & r2) & g') (F1 & F2). simpl in *.
    inversion F1; subst. constructor. split; [split|]; simpl; auto. now apply put_back_sim.
Qed.

Lemma pops_sim : forall dbg n h (s t : pstate O n), pssim s t -> ps_pred s = ps_pred t ->
  orel (fun s t => pssim s t /\ ps_pred s = ps_pred t) (pops_run dbg h s) (pops_run dbg h t).
Proof.
  intros. unfold pops_run. apply orel_foldm; auto. intros a c1 c2 _ (A & B). now apply pop_sim.
Qed.

Lemma pops_wf : forall dbg n h (s s' : pstate O n), stwf (ps_store s) -> pops_run dbg h s = Ok s' -> stwf (ps_store s').
Proof.
  intros dbg n h s s' W E. pose proof (pops_sim dbg n h s s) as Q. rewrite E in Q.
  assert (X : pssim s s) by (split; [now apply stsim_refl|auto]). specialize (Q X eq_refl).
  inversion Q; subst. intros i. destruct H1 as ((H1 & _) & _). apply (H1 i).
Qed.

Lemma recycled_same_models : forall dbg n (r0 : red O n) h s i h',
  pops_run dbg h (mkPs fstore0 r0 [] []) = Ok s ->
  orel ps_same (pops_run dbg (PF (FClear i) :: h') s) (pops_run dbg (PF (FNew i) :: h') s).
Proof.
  intros dbg n r0 h s i h' E. pose proof (pops_wf _ _ _ _ _ (stwf0 : stwf (ps_store (mkPs fstore0 r0 [] []))) E) as W.
  destruct s as [st r pt pp]. simpl in W. unfold pops_run. simpl.
  eapply orel_mono; [apply (pops_sim dbg n h')|].
  - split; [|auto]. intros j. simpl. unfold st_upd. destruct (Nat.eqb j i); [|apply fsim_refl, W].
    apply fsim_clear_new, W.
  - reflexivity.
  - intros a b ((H1 & H2 & H3) & H4). split; [|auto]. intros j. split; [apply fsim_view, H1|apply fsim_compare, H1].
Qed.

Lemma fts_of_wf : forall st l, @stwf O st -> ftwf (fts_of st l).
Proof.
  intros st [i|s xs] W; simpl; auto. split; [destruct s; simpl; auto|].
  apply Forall_forall. intros m Hm. apply in_map_iff in Hm. destruct Hm as (j & <- & _). apply W.
Qed.

Lemma erase_predicts : forall H dbg gc (c : rcfg O) R r h st0 s,
  ws_new H dbg gc c = Ok R -> reach dbg (projT2 R) r -> stwf st0 ->
  forall pt pp, pops_run dbg h (mkPs st0 r pt pp) = Ok s -> predicts_tidy dbg h (mkPs st0 r pt pp) ->
  forall st1 pp1, stsim st0 st1 ->
  exists s', pops_run dbg (erase h) (mkPs st1 r pt pp1) = Ok s' /\ pssim s s' /\ ps_pred s' = pp1.
Proof.
  intros H dbg gc c R r h. revert r. unfold pops_run. induction h as [|o h IH]; intros r st0 s E Q W pt pp HR HT st1 pp1 S.
  - simpl in HR. inversion HR; subst. eexists. split; [reflexivity|]. split; [|reflexivity]. split; auto.
  - cbn [foldm] in HR. binv HR. rename v into s1. destruct HT as (T1 & T2). specialize (T2 _ B).
    destruct (is_predict o) eqn:Eo.
    + destruct o as [|l| |]; try discriminate. cbn [erase filter is_predict negb].
      cbn [pop_run] in B. binv B. destruct v as (p & f'). inversion B; subst. clear B.
      assert (K : elems_ok (projT1 R) r) by (eapply reach_elems; eauto).
      assert (S' : ftsim (fts_of st0 l) f').
      { eapply ws_predict_restore; [exact K|now apply fts_of_wf|exact T1|exact B0]. }
      assert (S2 : stsim st0 (put_back st0 l f')).
      { eapply stsim_trans; [apply (put_back_same st0 l W)|]. apply put_back_sim; auto. now apply stsim_refl. }
      eapply IH; [exact E|exact Q| |exact HR|exact T2|].
      * intros j. apply (S2 j).
      * eapply stsim_trans; [apply stsim_sym; exact S2|exact S].
    + cbn [erase filter]. rewrite Eo. cbn [negb foldm].
      pose proof (pop_sim dbg _ o (mkPs st0 r pt pp) (mkPs st1 r pt pp) (conj S (conj eq_refl eq_refl)) eq_refl) as X.
      rewrite B in X. inversion X as [u v (X1 & X2) U1 U2| |]; subst. symmetry in U2.
      assert (Y : pop_run dbg (mkPs st1 r pt pp1) o = Ok (mkPs (ps_store v) (ps_red v) (ps_ptl v) pp1)).
      { clear - U2 Eo. destruct o; try discriminate; cbn [pop_run] in *.
        - binv U2. inversion U2; subst. simpl. now rewrite B.
        - binv U2. destruct v0. inversion U2; subst. simpl. now rewrite B.
        - binv U2. destruct v0 as ((?&?)&?). inversion U2; subst. simpl. now rewrite B. }
      rewrite Y. cbn [bind]. destruct X1 as (Z1 & Z2 & Z3).
      destruct s1 as [st0' r1 pt1 pq1]. simpl in *. subst r1 pt1.
      assert (Q' : reach dbg (projT2 R) (ps_red v)).
      { destruct o; try discriminate; cbn [pop_run] in U2.
        - binv U2. inversion U2; subst. exact Q.
        - binv U2. destruct v0 as (r1 & f1). inversion U2; subst. simpl. eapply reach_learn; eauto.
        - binv U2. destruct v0 as ((p1 & r1) & f1). inversion U2; subst. simpl. eapply reach_ptl; eauto. }
      eapply IH; [exact E|exact Q'| |exact HR|exact T2|exact Z1].
      intros j. apply (Z1 j).
Qed.

Lemma predicts_erasable : forall H dbg gc (c : rcfg O) R h s,
  ws_new H dbg gc c = Ok R ->
  pops_run dbg h (mkPs fstore0 (projT2 R) [] []) = Ok s ->
  predicts_tidy dbg h (mkPs fstore0 (projT2 R) [] []) ->
  exists s', pops_run dbg (erase h) (mkPs fstore0 (projT2 R) [] []) = Ok s' /\
    ps_red s' = ps_red s /\ ps_ptl s' = ps_ptl s /\ (forall i, same_view (ps_store s i) (ps_store s' i)).
Proof.
  intros H dbg gc c R h s E HR HT.
  destruct (erase_predicts H dbg gc c R _ h fstore0 s E (reach_refl dbg (projT2 R)) stwf0 [] [] HR HT fstore0 []
              (stsim_refl _ stwf0)) as (s' & A & (B1 & B2 & B3) & _).
  exists s'. split; auto. split; auto. split; auto. intros i. apply fsim_view, B1.
Qed.

Lemma predict_repeatable : forall H dbg gc (c : rcfg O) R r f p f',
  ws_new H dbg gc c = Ok R -> reach dbg (projT2 R) r -> plain f ->
  ws_predict dbg r f = Ok (p, f') ->
  exists f'', ws_predict dbg r f' = Ok (p, f'') /\ fts_same f f''.
Proof.
  intros H dbg gc c R r f p f' E Q (B & T) X. pose proof (reach_elems _ _ _ _ _ _ E Q) as K. apply built_ftwf in B.
  pose proof (ws_predict_restore _ _ _ _ _ _ K B T X) as S.
  pose proof (ws_predict_sim dbg _ r f f' S) as Y. rewrite X in Y. inversion Y as [u v (Y1 & Y2) U1 U2| |]; subst.
  destruct v as (q & f''). simpl in *; subst. exists f''. split; auto.
  apply ftsim_same. eapply ftsim_trans; eauto.
Qed.

End P.

(** ** Concrete stacks and features, for the examples and refutations *)
Definition ex_hash : hasher := fun k s => fold_left (fun a b => wrap32 (a * 31 + b)%N) k s.
Definition ex_gc : gconfig := mkGc 4 0 true [].
Definition ex_cfg : rcfg BF0 := CGreedy (f_lit BF0 1 10) (CDebug (CCbAdf Ips (CCoin coin_default))).
Definition ex_red : out (anyred BF0) := ws_new ex_hash false ex_gc ex_cfg.
Definition ex_hist : list (fop BF0) :=
  [FAdd 0 (NsNamed 7) 5%N f1; FAdd 1 (NsNamed 7) 6%N f1; FAdd 1 NsDefault 8%N f1; FAdd 2 (NsNamed 9) 3%N f1].
Definition ex_store : fstore BF0 := match fops_run true ex_hist fstore0 with Ok st => st | _ => fstore0 end.
Definition ex_fts : features BF0 := FtsCb (Some (ex_store 1%nat)) [ex_store 0%nat; ex_store 2%nat].
(** an action with an active namespace without features, which the shared part has too *)
Definition ex_hist_empty : list (fop BF0) := ex_hist ++ [FCreate 2 NsDefault].
Definition ex_store_empty : fstore BF0 := match fops_run true ex_hist_empty fstore0 with Ok st => st | _ => fstore0 end.
Definition ex_fts_empty : features BF0 := FtsCb (Some (ex_store_empty 1%nat)) [ex_store_empty 0%nat; ex_store_empty 2%nat].

Lemma ex_built : forall i, built (ex_store i).
Proof. intros i. exists true, ex_hist, ex_store, i. split; reflexivity. Qed.
Lemma ex_built_empty : forall i, built (ex_store_empty i).
Proof. intros i. exists true, ex_hist_empty, ex_store_empty, i. split; reflexivity. Qed.

Ltac concrete := cbn;
  repeat match goal with |- context [ns_eqb ?a ?b] => destruct (ns_eqb a b) eqn:?; cbn end; try discriminate.

Lemma ex_proper : forall k i, (i < 3)%nat -> proper_entry k (ex_store i).
Proof.
  intros k i Hi s. destruct i as [|[|[|i]]]; [| | |lia]; cbn;
    repeat match goal with |- context [ns_eqb ?a ?b] => destruct (ns_eqb a b) eqn:?; cbn end;
    intros H; inversion H; subst; cbn; split; congruence.
Qed.
Lemma ex_no_composite : forall i, (i < 3)%nat -> no_composite (ex_store i).
Proof.
  intros i Hi h s. destruct i as [|[|[|i]]]; [| | |lia]; cbn; discriminate.
Qed.
Lemma ex_plain : plain ex_fts.
Proof.
  split; [split|split].
  - intros a [<-|[<-|[]]]; apply ex_built.
  - apply ex_built.
  - intros a [<-|[<-|[]]]; apply ex_no_composite; lia.
  - split; [apply ex_no_composite; lia|]. intros a [<-|[<-|[]]]; split; intros k _; apply ex_proper; lia.
Qed.

Lemma restore_refuted_release :
  exists R, ws_new ex_hash false ex_gc ex_cfg = Ok R /\ built_fts ex_fts_empty /\
  exists p f', ws_predict false (projT2 R) ex_fts_empty = Ok (p, f') /\ ~ fts_same ex_fts_empty f'.
Proof.
  destruct (ws_new ex_hash false ex_gc ex_cfg) as [R|e|e] eqn:E; [|vm_compute in E; discriminate..].
  exists R. split; [reflexivity|]. split.
  { split; [intros a [<-|[<-|[]]]; apply ex_built_empty|apply ex_built_empty]. }
  vm_compute in E. inversion E; subst; clear E.
  eexists. eexists. split; [vm_compute; reflexivity|].
  intros (_ & H). inversion H as [|? ? ? ? _ H2]; subst. inversion H2 as [|? ? ? ? H3]; subst.
  destruct H3 as (H3 & _). specialize (H3 NsDefault). vm_compute in H3. discriminate.
Qed.
Lemma restore_refuted_debug :
  exists R, ws_new ex_hash true ex_gc ex_cfg = Ok R /\ ws_predict true (projT2 R) ex_fts_empty = Pn PAssert.
Proof.
  destruct (ws_new ex_hash true ex_gc ex_cfg) as [R|e|e] eqn:E; [|vm_compute in E; discriminate..].
  exists R. split; [reflexivity|]. vm_compute in E. inversion E; subst; clear E. vm_compute. reflexivity.
Qed.

(** a visible namespace with the hash the element-wise reduction uses is lost *)
Definition ex_raw_cfg : rcfg BF0 := CElem (NDName [97%N]) (NDName [98%N]) true (CCoin coin_default).
Definition ex_ns (c : N) : namespace := ns_from_name ex_hash [c] 0.
Definition ex_raw_hist : list (fop BF0) :=
  [FAdd 0 (ex_ns 97) 1%N f1; FAdd 0 (ex_ns 98) 2%N f1; FAdd 0 (elem_ns (ex_ns 97) (ex_ns 98)) 3%N f1].
Definition ex_raw_store : fstore BF0 := match fops_run true ex_raw_hist fstore0 with Ok st => st | _ => fstore0 end.
Lemma restore_refuted_composite :
  exists R, ws_new ex_hash false ex_gc ex_raw_cfg = Ok R /\ built_fts (FtsSimple (ex_raw_store 0%nat)) /\
  exists p f', ws_predict false (projT2 R) (FtsSimple (ex_raw_store 0%nat)) = Ok (p, f') /\
    ~ fts_same (FtsSimple (ex_raw_store 0%nat)) f'.
Proof.
  destruct (ws_new ex_hash false ex_gc ex_raw_cfg) as [R|e|e] eqn:E; [|vm_compute in E; discriminate..].
  exists R. split; [reflexivity|]. split.
  { exists true, ex_raw_hist, ex_raw_store, 0%nat. split; reflexivity. }
  vm_compute in E. inversion E; subst; clear E.
  eexists. eexists. split; [vm_compute; reflexivity|].
  intros (H3 & _). specialize (H3 (elem_ns (ex_ns 97) (ex_ns 98))). vm_compute in H3. discriminate.
Qed.

(** all three calls return on the example *)
Definition ex_lb : label BF0 := LbCb 1 f1 (f_lit BF0 1 2).
Definition ok_of {A} (x : out A) : bool := match x with Ok _ => true | _ => false end.
Lemma ex_calls :
  exists R, ex_red = Ok R /\ ok_of (ws_predict false (projT2 R) ex_fts) = true /\
    ok_of (ws_learn false (projT2 R) ex_fts ex_lb) = true /\ ok_of (ws_ptl false (projT2 R) ex_fts ex_lb) = true.
Proof.
  unfold ex_red. destruct (ws_new ex_hash false ex_gc ex_cfg) as [R|e|e] eqn:E; [|vm_compute in E; discriminate..].
  exists R. split; [reflexivity|]. vm_compute in E. inversion E; subst; clear E. repeat split; vm_compute; reflexivity.
Qed.

(** a program with predict calls in between *)
Definition ex_sel : sel := SelCb (Some 1%nat) [0%nat; 2%nat].
Definition ex_prog : list (pop BF0) :=
  map (@PF BF0) ex_hist ++ [PPredict ex_sel; PLearn ex_sel ex_lb; PPredict ex_sel; PPtl ex_sel ex_lb].
(** a computable sufficient check for [predicts_tidy] *)
Definition entryb (kv : namespace * sfn BF0) : bool :=
  Bool.eqb (sfn_active (snd kv)) (negb (Nat.eqb (length (sfn_iter (snd kv))) 0)) &&
  match fst kv with NsRawHash _ => false | _ => true end.
Definition objb (m : sfeats BF0) : bool := forallb entryb m.
Definition ftsb (f : features BF0) : bool :=
  match f with
  | FtsSimple a => objb a
  | FtsCb s x => forallb objb x && match s with Some m => objb m | None => true end
  end.
Lemma objb_ok : forall m, objb m = true -> no_composite m /\ forall k, proper_entry k m.
Proof.
  intros m H. unfold objb in H. rewrite forallb_forall in H. split.
  - intros h s E. apply fm_get_in, H in E. unfold entryb in E. simpl in E. rewrite andb_false_r in E. discriminate.
  - intros k s E. apply fm_get_in, H in E. apply andb_prop in E. destruct E as (E & _). simpl in E.
    apply Bool.eqb_prop in E. destruct s as [n i v a]. unfold sfn_iter in *. simpl in *. subst a.
    destruct (combine i v); simpl; split; congruence.
Qed.
Lemma ftsb_ok : forall f, ftsb f = true -> tidy f.
Proof.
  intros [a|s x]; simpl; intros H.
  - now apply objb_ok.
  - apply andb_prop in H. destruct H as (H1 & H2). rewrite forallb_forall in H1. split.
    + intros a Ha. now apply objb_ok, H1.
    + destruct s as [sh|]; auto. split; [now apply objb_ok|]. intros a Ha. split; intros k _; apply objb_ok; auto.
Qed.
Fixpoint predictsb (dbg : bool) {n} (h : list (pop BF0)) (s : pstate BF0 n) : bool :=
  match h with
  | [] => true
  | o :: h' =>
      (match o with PPredict l => ftsb (fts_of (ps_store s) l) | _ => true end) &&
      match pop_run dbg s o with Ok s' => predictsb dbg h' s' | _ => true end
  end.
Lemma predictsb_ok : forall dbg n h (s : pstate BF0 n), predictsb dbg h s = true -> predicts_tidy dbg h s.
Proof.
  induction h as [|o h IH]; simpl; auto. intros s H. apply andb_prop in H. destruct H as (H1 & H2). split.
  - destruct o; auto. now apply ftsb_ok.
  - intros s' E. rewrite E in H2. now apply IH.
Qed.

Lemma ex_prog_ok : exists R s, ex_red = Ok R /\
  pops_run false ex_prog (mkPs fstore0 (projT2 R) [] []) = Ok s /\
  predicts_tidy false ex_prog (mkPs fstore0 (projT2 R) [] []) /\
  length (ps_ptl s) = 1%nat /\ length (ps_pred s) = 2%nat.
Proof.
  unfold ex_red. destruct (ws_new ex_hash false ex_gc ex_cfg) as [R|e|e] eqn:E; [|vm_compute in E; discriminate..].
  assert (C : (predictsb false ex_prog (mkPs fstore0 (projT2 R) [] []) &&
    match pops_run false ex_prog (mkPs fstore0 (projT2 R) [] []) with
    | Ok s => Nat.eqb (length (ps_ptl s)) 1 && Nat.eqb (length (ps_pred s)) 2 | _ => false end) = true).
  { vm_compute in E. inversion E; subst. vm_compute. reflexivity. }
  apply andb_prop in C. destruct C as (C1 & C2).
  destruct (pops_run false ex_prog (mkPs fstore0 (projT2 R) [] [])) as [s|e|e] eqn:Es; try discriminate.
  apply andb_prop in C2. destruct C2 as (C2 & C3).
  exists R, s. split; [reflexivity|]. split; [exact Es|]. split; [now apply predictsb_ok|].
  split; now apply Nat.eqb_eq.
Qed.
