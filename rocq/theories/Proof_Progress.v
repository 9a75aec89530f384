(** Progressive validation by the train command (C63). *)
From Coq Require Import List NArith ZArith Bool Lia PeanoNat Permutation.
From Verif Require Import Base FloatOps Model_Hash Model_Features Model_Weights Model_Types Model_Explore
  Model_Coin Model_Stack Model_Factory Model_Text Model_Metrics Model_Train Spec_Features Spec_Stack Spec_Text Spec_Metrics Spec_Progress
  Proof_Features Proof_FeaturesHist Proof_StackCong Proof_StackRestore Proof_StackPtl Proof_StackShape Proof_StackProps
  Proof_Loose Proof_TextFeats Proof_TextChunk Proof_Order Proof_Metrics Proof_Train.
Import ListNotations.

Section P.
Context {O : FOps}.
Implicit Types (f g : features O).

(** ** the features left behind have as many features *)
Lemma at_key_item : forall (m : sfeats O) k, at_key m k = sfn_iter (item k m).
Proof. intros m k. unfold at_key, item. destruct (fm_get k m); auto. Qed.
Lemma size0_iter : forall k (m : sfeats O), fwf m -> sfn_size (item k m) = 0%nat -> at_key m k = [].
Proof.
  intros k m W Z. rewrite at_key_item. destruct (size0_nil k _ (item_wf k m W) Z) as (A & B).
  unfold sfn_iter. now rewrite A.
Qed.
Lemma vget_iter : forall k (a b : sfeats O), vget k a = vget k b -> at_key a k = at_key b k.
Proof.
  intros k a b E. unfold at_key. unfold vget in E.
  destruct (fm_get k a) as [s|] eqn:Ea, (fm_get k b) as [t|] eqn:Eb; auto.
  - destruct (svis s) eqn:V, (svis t) eqn:V'; try congruence. rewrite !hidden_iter; auto.
  - destruct (svis s) eqn:V; try congruence. now rewrite hidden_iter.
  - destruct (svis t) eqn:V; try congruence. now rewrite hidden_iter.
Qed.
Lemma wl_count : forall a b : sfeats O, wl a b -> length (sf_all a) = length (sf_all b).
Proof.
  intros a b (Wa & Wb & E).
  assert (D : forall x y : namespace, {x = y} + {x <> y}).
  { intros x y. destruct (ns_eqb x y) eqn:Q; [left; now apply ns_eqb_eq|right]. intros ->.
    assert (ns_eqb y y = true) by now apply ns_eqb_eq. congruence. }
  set (K := nodup D (map fst a ++ map fst b)).
  rewrite (Permutation_length (sf_all_perm a K (proj1 Wa) (NoDup_nodup _ _)
     (fun k Hk => proj2 (nodup_In D _ _) (in_or_app _ _ _ (or_introl Hk))))).
  rewrite (Permutation_length (sf_all_perm b K (proj1 Wb) (NoDup_nodup _ _)
     (fun k Hk => proj2 (nodup_In D _ _) (in_or_app _ _ _ (or_intror Hk))))).
  f_equal. apply flat_ext. intros k _. destruct (E k) as [Q|(Z1 & Z2 & _)]; [now apply vget_iter|].
  now rewrite !size0_iter.
Qed.
Lemma ftwl_count : forall f g, ftwl f g -> feature_count f = feature_count g.
Proof.
  intros [a|s x] [b|t y]; simpl; try tauto. intros (S & F). f_equal.
  - destruct s, t; simpl in S; try tauto. now rewrite (wl_count s s0).
  - generalize 0%N. induction F as [|a b x y Hab F IH]; intros n; simpl; auto. rewrite (wl_count a b) by auto. apply IH.
Qed.

Lemma ptl_count_cb : forall dbg n (r : red O n) s x lb d mo y f' d', elems_ok n r -> loosef s x ->
  predict_then_learn dbg n r (FtsCb s x) lb d mo = Ok (y, f', d') -> feature_count f' = feature_count (FtsCb s x).
Proof.
  induction n as [|n IH]; intros r s x lb d mo y f' d' K G E.
  - destruct r as (w & c). cbn [predict_then_learn] in E. apply wrap_ok in E. destruct E as (d1 & d2 & E). discriminate.
  - destruct r as ((w & k) & ch). cbn [predict_then_learn] in E. apply wrap_ok in E. destruct E as (d1 & d2 & E).
    destruct K as (K1 & K2). cbn [fst snd] in K1, K2.
    binv E. destruct v as ((p0 & g) & e). destruct p0 as (p0 & (k' & ch')). inversion E; subst. clear E.
    destruct (default_or k) as [D|Cases].
    + assert (DFT : kind_ptl dbg k (predict dbg n) (learn dbg n) (predict_then_learn dbg n) ch (FtsCb s x) lb d1 mo =
          default_ptl (fun f d => kind_predict dbg k (predict dbg n ch) f d mo)
            (fun f d => kind_learn dbg k (learn dbg n) ch f lb d mo) (FtsCb s x) d1)
        by (destruct k; simpl in D; tauto || reflexivity).
      rewrite DFT in B. unfold default_ptl in B. binv B. destruct v as ((p1 & f1) & e1). binv B. destruct v as ((x0 & f2) & e2).
      destruct (e2 =? d1)%N; inversion B; subst. clear B DFT.
      destruct (kind_predict_loose _ _ _ _ _ _ _ _ _ _ _ K2 G B0) as (z & -> & F).
      rewrite <- (ftwl_count (FtsCb s z) f').
      * symmetry. apply ftwl_count. apply cosim_ftwl; auto. apply G.
      * eapply (kind_learn_wl _ (elems_ok n)); [| |exact K2|eapply loosef_cosim; eauto|exact B1].
        -- intros c0 s0 lb0 d0 mo0 c' f0 e0 P0 W0 E0. eapply (learn_restore dbg n c0 (FtsSimple s0)); eauto.
        -- intros; eapply learn_wl; eauto. eapply loosef_cosim; eauto.
    + destruct Cases as [->|[->|(one & two & keep & nb & ->)]]; cbn [kind_ptl] in B.
      * binv B. binv B. destruct v0 as (((q & c') & g) & e). binv B. inversion B; subst. eapply IH; eauto.
      * binv B. destruct v as (((q & c') & g) & e). inversion B; subst. eapply IH; eauto.
      * binv B. cbn [elem_frame as_simple bind] in B0. discriminate.
Qed.

(** features with which everything here works *)
Definition qgood f : Prop := pgood f /\ match f with FtsSimple a => noraw a | _ => True end.

Lemma ws_ptl_count : forall dbg n (r : red O n) f lb p r' f', elems_ok n r -> qgood f ->
  ws_ptl dbg r f lb = Ok (p, r', f') -> feature_count f' = feature_count f.
Proof.
  intros dbg n r f lb p r' f' K (G & Nr) E. apply ws_ptl_ok in E. destruct f as [a|s x].
  - destruct (proj1 (ptl_ok dbg n r (FtsSimple a) lb 0 K G eq_refl) _ _ _ _ E) as (f1 & f2 & E1 & _ & S & _).
    rewrite (feature_count_sim _ _ S). pose proof (predict_restore _ _ _ (FtsSimple a) _ _ _ _ _ K G E1) as Q.
    destruct f1 as [a1|]; [|now simpl in Q]. symmetry. apply feature_count_sim. simpl. now apply rr_fsim.
  - eapply ptl_count_cb; eauto.
Qed.

Definition qparser (ps : parser O) : Prop :=
  forall ds chunk u, Forall looks_new ds -> ps ds chunk = Ok u ->
    qgood (fst u) /\ exists v, ps [] chunk = Ok v /\ fl_sim u v /\ qgood (fst v).

(** ** metrics and manager *)
Lemma mapm_F2 : forall A B (h : A -> out B) l l', mapm h l = Ok l' -> Forall2 (fun x y => h x = Ok y) l l'.
Proof.
  induction l as [|x l IH]; intros l' E; cbn [mapm] in E; [inversion E; constructor|].
  binv E. binv E. inversion E; subst. constructor; auto.
Qed.
Lemma F2_len : forall A B (Q : A -> B -> Prop) l l', Forall2 Q l l' -> length l = length l'.
Proof. induction 1; simpl; auto. Qed.
Lemma F2_mapm : forall A B (h : A -> out B) l l', Forall2 (fun x y => h x = Ok y) l l' -> mapm h l = Ok l'.
Proof. induction 1; cbn [mapm]; auto. rewrite H, IHForall2. reflexivity. Qed.

Lemma add_points_snoc : forall (l : list (point O)) m m1 p m2, add_points m l = Ok m1 ->
  metric_add m1 (pt_feats p) (pt_label p) (pt_pred p) = Ok m2 -> add_points m (l ++ [p]) = Ok m2.
Proof.
  intros l. unfold add_points. induction l as [|q l IH]; intros m m1 p m2 E1 E2.
  - cbn [foldm app] in *. inversion E1; subst. rewrite E2. reflexivity.
  - cbn [foldm app] in *. binv E1. rewrite B. cbn [bind]. eapply IH; eauto.
Qed.

Definition eqm (a b : manager O) : Prop := mg_iter a = mg_iter b /\ mg_next a = mg_next b /\ mg_period a = mg_period b.
Lemma inc_eqm : forall dbg a b, eqm a b -> orel (fun x y => fst x = fst y /\ eqm (snd x) (snd y)) (inc_iteration dbg a) (inc_iteration dbg b).
Proof.
  intros dbg a b (E1 & E2 & E3). unfold inc_iteration. rewrite E1, E2, E3.
  destruct (mg_next b <=? mg_iter b)%N.
  - match goal with |- orel _ (bind ?X _) _ => destruct X end; cbn [bind]; try constructor.
    destruct (add32 dbg (mg_iter b) 1); cbn [bind]; constructor. repeat split; auto.
  - destruct (add32 dbg (mg_iter b) 1); cbn [bind]; constructor. repeat split; auto.
Qed.
Lemma outputs_eqm : forall dbg n a b, eqm a b -> outputs dbg a n = outputs dbg b n.
Proof.
  intros dbg. induction n as [|n IH]; intros a b E; cbn [outputs]; auto.
  pose proof (inc_eqm dbg a b E) as Q. destruct (inc_iteration dbg a) as [x| |], (inc_iteration dbg b) as [y| |]; inversion Q; subst; auto.
  destruct H1 as (F1 & F2). cbn [bind]. now rewrite F1, (IH _ _ F2).
Qed.
Lemma inc_rows : forall dbg (m : manager O) b m', inc_iteration dbg m = Ok (b, m') -> mg_rows m' = mg_rows m.
Proof.
  intros dbg m b m' E. unfold inc_iteration in E. destruct (mg_next m <=? mg_iter m)%N.
  - binv E. binv E. inversion E; subst. reflexivity.
  - binv E. inversion E; subst. reflexivity.
Qed.

(** ** the loop *)
Definition row_ms (dbg : bool) (ms0 : list (metric O)) (pts : list (point O)) (k : nat) (row : list (mvalue O)) : Prop :=
  Forall2 (fun m0 v => exists m, add_points m0 (firstn k pts) = Ok m /\ metric_value dbg m = Ok v) ms0 row.

Lemma row_intro : forall dbg ms0 pts ms row k rest, length pts = k ->
  Forall2 (fun m0 m => add_points m0 pts = Ok m) ms0 ms ->
  mapm (metric_value dbg) ms = Ok row -> row_ms dbg ms0 (pts ++ rest) k row.
Proof.
  intros dbg ms0 pts ms row k rest L F E. apply mapm_F2 in E. unfold row_ms.
  rewrite <- L, firstn_app, Nat.sub_diag, firstn_all. cbn [firstn]. rewrite app_nil_r. clear L.
  revert row E. induction F as [|m0 m ms0 ms Hm F IH]; intros row E; inversion E; subst; constructor; eauto.
Qed.

Lemma loop_progress : forall dbg md ps need ms0 n chunks (st : tstate O n) ds st' ds' pts0,
  qparser ps -> elems_ok n (t_red st) -> Forall looks_new ds ->
  Forall2 (fun m0 m => add_points m0 pts0 = Ok m) ms0 (t_metrics st) ->
  train_loop dbg md ps need chunks (st, ds) = Ok (st', ds') ->
  exists exs, Forall2 (fun chunk ex => ps [] chunk = Ok (fst ex, Some (snd ex))) chunks exs /\
    learned dbg (t_red st) exs (t_red st') /\
    (negb (tm_quiet md) || tm_preds md = true -> exists prs, progressive dbg (t_red st) exs prs /\
       t_preds st' = t_preds st ++ (if tm_preds md then prs else []) /\
       let pts := pts0 ++ points_of exs prs in
       length (points_of exs prs) = length exs /\
       Forall2 (fun m0 m => add_points m0 pts = Ok m) ms0 (t_metrics st') /\
       exists bs rows, outputs dbg (t_mgr st) (length exs) = Ok bs /\
         mg_rows (t_mgr st') = mg_rows (t_mgr st) ++ rows /\
         Forall2 (row_ms dbg ms0 pts) (answered (length pts0) bs) rows) /\
    (negb (tm_quiet md) || tm_preds md = false -> t_preds st' = t_preds st /\ mg_rows (t_mgr st') = mg_rows (t_mgr st)).
Proof.
  intros dbg md ps need ms0 n chunks. induction chunks as [|c chunks IH]; intros st ds st' ds' pts0 OK K F FM E.
  - inversion E; subst. exists []. split; [constructor|]. split; [constructor|]. split; [|auto].
    intros _. exists []. split; [constructor|]. split; [destruct (tm_preds md); now rewrite app_nil_r|].
    cbn [points_of combine map length]. rewrite app_nil_r. split; auto. split; auto. exists [], [].
    split; [reflexivity|]. split; [now rewrite app_nil_r|constructor].
  - unfold train_loop in E. cbn [foldm] in E. binv E. destruct v as (st1 & ds1).
    unfold train_chunk in B at 1. cbn [fst snd] in B. binv B. binv B. destruct v0 as (st1' & f1). inversion B; subst. clear B.
    destruct v as (f & lb0).
    destruct (ps ds c) as [u| |] eqn:EP; try discriminate. cbn [unwrap_res] in B0. inversion B0; subst u. clear B0.
    destruct (OK ds c _ F EP) as (Gf & v & EP0 & (Sfg & L) & Gg). destruct v as (g & lb1). cbn [fst snd] in *. subst lb1.
    destruct lb0 as [lb|]; [|discriminate].
    assert (W1 : ftwf f1).
    { pose proof (process_sim dbg md n st f f (Some lb) (ftsim_refl f (pgood_wf f (proj1 Gf)))) as Q3. rewrite B1 in Q3.
      inversion Q3 as [? ? (_ & S3)| |]; subst. cbn [snd] in S3. eapply ftsim_wf_l; eauto. }
    pose proof (process_sim dbg md n st f g (Some lb) Sfg) as Q2. rewrite B1 in Q2.
    inversion Q2 as [u w (E1 & S1) Eu Ew2| |]; subst. destruct w as (s2' & g2). cbn [fst snd] in *. subst s2'.
    clear B1 Q2 Gf EP. rename Ew2 into B1. symmetry in B1.
    unfold process_example in B1. cbn [opt_or bind] in B1.
    assert (Fd : Forall looks_new (give_back f1 (skipn (need c) ds))) by (apply give_back_new; auto using skipn_new).
    destruct (negb (tm_quiet md) || tm_preds md) eqn:MD.
    + binv B1. destruct v as ((p & r') & g'). binv B1. rename v into ms. binv B1. destruct v as (b & mg1). cbn [fst snd] in B1.
      binv B1. rename v into mg2. inversion B1; subst st1 g2. clear B1.
      destruct (proj1 (ws_ptl_agrees dbg n (t_red st) g lb K (proj1 Gg)) _ _ _ B) as (h1 & h2 & P1 & L1).
      assert (K2 : elems_ok n r').
      { pose proof L1 as L2. apply ws_learn_ok in L2. pose proof (learn_shape _ _ _ _ _ _ _ _ _ _ L2) as Sh. eapply shape_elems_ok; eauto. }
      pose proof (ws_ptl_count _ _ _ _ _ _ _ _ K Gg B) as CN.
      set (pt := mkPt g lb p).
      assert (FM2 : Forall2 (fun m0 m => add_points m0 (pts0 ++ [pt]) = Ok m) ms0 ms).
      { apply mapm_F2 in B0. clear - FM B0 CN. revert ms B0.
        induction FM as [|m0 m ms0 ms1 Hm FM IH]; intros ms B0; inversion B0; subst; constructor; auto.
        eapply add_points_snoc; [exact Hm|]. unfold pt. cbn [pt_feats pt_label pt_pred]. rewrite <- H1.
        destruct m; cbn [metric_add]; auto. now rewrite CN. }
      destruct (IH (mkTs r' (if tm_preds md then t_preds st ++ [p] else t_preds st) ms mg2) _ st' ds' (pts0 ++ [pt]) OK K2 Fd FM2 E) as (exs & X1 & X2 & X3 & _).
      destruct (X3 eq_refl) as (prs & Y1 & Y2 & Y3). cbn [t_red t_preds t_mgr t_metrics] in *. clear X3.
      destruct Y3 as (YL & YM & bs & rows & YO & YR & YF).
      exists ((g, lb) :: exs). split; [constructor; auto|]. split; [econstructor; eauto|]. split; [|discriminate].
      intros _. exists (p :: prs). split; [econstructor; eauto|].
      split; [rewrite Y2; destruct (tm_preds md); rewrite <- ?app_assoc; auto|].
      assert (PE : points_of ((g, lb) :: exs) (p :: prs) = pt :: points_of exs prs) by reflexivity.
      rewrite PE. cbn zeta. cbn [length]. rewrite <- app_assoc in YM, YF. cbn [app] in YM, YF. split; [now rewrite YL|]. split; auto.
      assert (EM : eqm mg1 mg2 /\ exists rows0, mg_rows mg2 = mg_rows (t_mgr st) ++ rows0 /\
                 Forall2 (row_ms dbg ms0 (pts0 ++ pt :: points_of exs prs)) (if b then [S (length pts0)] else []) rows0).
      { pose proof (inc_rows _ _ _ _ B2) as RW. destruct b.
        - binv B3. unfold add_results in B3. destruct (Nat.eqb _ _); [|discriminate]. inversion B3; subst. split; [repeat split|].
          exists [v]. cbn [mg_rows]. rewrite RW. split; auto. constructor; [|constructor].
          replace (pts0 ++ pt :: points_of exs prs) with ((pts0 ++ [pt]) ++ points_of exs prs) by now rewrite <- app_assoc.
          eapply row_intro; [|exact FM2|exact B1]. rewrite app_length. simpl. lia.
        - inversion B3; subst. split; [repeat split|]. exists []. rewrite app_nil_r. split; auto. }
      destruct EM as (EM & rows0 & R1 & R2).
      exists (b :: bs), (rows0 ++ rows). cbn [outputs]. rewrite B2. cbn [bind fst snd].
      rewrite (outputs_eqm dbg _ _ _ EM), YO. cbn [bind]. split; auto. split; [rewrite YR, R1; now rewrite app_assoc|].
      cbn [answered]. apply Forall2_app; auto. rewrite app_length in YF. cbn [length] in YF.
      now rewrite Nat.add_1_r in YF.
    + binv B1. destruct v as (r' & g'). cbn [fst snd] in B1. inversion B1; subst st1 g2. clear B1.
      assert (K2 : elems_ok n r').
      { pose proof B as L2. apply ws_learn_ok in L2. pose proof (learn_shape _ _ _ _ _ _ _ _ _ _ L2) as Sh. eapply shape_elems_ok; eauto. }
      destruct (IH (mkTs r' (t_preds st) (t_metrics st) (t_mgr st)) _ st' ds' pts0 OK K2 Fd FM E) as (exs & X1 & X2 & _ & X4).
      destruct (X4 eq_refl) as (Y1 & Y2). cbn [t_red t_preds t_mgr t_metrics] in *.
      exists ((g, lb) :: exs). split; [constructor; auto|]. split; [econstructor; eauto|]. split; [discriminate|auto].
Qed.

(** ** the other way round *)
Lemma add_points_prefix : forall (l l2 : list (point O)) m m2, add_points m (l ++ l2) = Ok m2 ->
  exists m1, add_points m l = Ok m1 /\ add_points m1 l2 = Ok m2.
Proof.
  unfold add_points. induction l as [|q l IH]; intros l2 m m2 E; cbn [foldm app] in *; [eauto|].
  binv E. rewrite B. cbn [bind]. now apply IH.
Qed.
Lemma add_points_fun : forall (l l2 : list (point O)) m m1 m2, add_points m l = Ok m1 -> add_points m (l ++ l2) = Ok m2 ->
  add_points m1 l2 = Ok m2.
Proof. intros l l2 m m1 m2 E1 E2. destruct (add_points_prefix _ _ _ _ E2) as (m1' & A & B). congruence. Qed.

Lemma inc_columns : forall dbg (m : manager O) b m', inc_iteration dbg m = Ok (b, m') -> mg_columns m' = mg_columns m.
Proof.
  intros dbg m b m' E. unfold inc_iteration in E. destruct (mg_next m <=? mg_iter m)%N.
  - binv E. binv E. inversion E; subst. reflexivity.
  - binv E. inversion E; subst. reflexivity.
Qed.

Lemma row_elim : forall dbg ms0 pts ms row k rest, length pts = k ->
  Forall2 (fun m0 m => add_points m0 pts = Ok m) ms0 ms ->
  row_ms dbg ms0 (pts ++ rest) k row -> mapm (metric_value dbg) ms = Ok row /\ length row = length ms0.
Proof.
  intros dbg ms0 pts ms row k rest L F R. unfold row_ms in R.
  rewrite <- L, firstn_app, Nat.sub_diag, firstn_all in R. cbn [firstn] in R. rewrite app_nil_r in R. clear L.
  split; [|now rewrite (F2_len _ _ _ _ _ R)]. apply F2_mapm.
  revert row R. induction F as [|m0 m ms0 ms Hm F IH]; intros row R; inversion R; subst; constructor; auto.
  destruct H1 as (m' & A & B). congruence.
Qed.

Lemma loop_complete : forall dbg md ps need ms0 n exs chunks (st : tstate O n) ds pts0 prs bs rows,
  parser_ok ps -> qparser ps -> negb (tm_quiet md) || tm_preds md = true -> elems_ok n (t_red st) -> Forall looks_new ds ->
  Forall2 (fun m0 m => add_points m0 pts0 = Ok m) ms0 (t_metrics st) -> mg_columns (t_mgr st) = length ms0 ->
  Forall2 (fun chunk ex => ps [] chunk = Ok (fst ex, Some (snd ex))) chunks exs ->
  progressive dbg (t_red st) exs prs ->
  Forall (fun m0 => exists m, add_points m0 (pts0 ++ points_of exs prs) = Ok m) ms0 ->
  outputs dbg (t_mgr st) (length exs) = Ok bs ->
  Forall2 (row_ms dbg ms0 (pts0 ++ points_of exs prs)) (answered (length pts0) bs) rows ->
  exists st' ds', train_loop dbg md ps need chunks (st, ds) = Ok (st', ds') /\
    mg_columns (t_mgr st') = length ms0 /\
    Forall2 (fun m0 m => add_points m0 (pts0 ++ points_of exs prs) = Ok m) ms0 (t_metrics st').
Proof.
  intros dbg md ps need ms0 n exs. induction exs as [|(g & lb) exs IH];
    intros chunks st ds pts0 prs bs rows OK OKQ MD K F FM FC X1 X2 FA XO XR.
  - inversion X1; subst. exists st, ds. split; [reflexivity|]. split; auto. inversion X2; subst. cbn. now rewrite app_nil_r.
  - inversion X1 as [|c ? chunks' ? EP0 X1' C1 C2]; subst. cbn [fst snd] in EP0. inversion X2 as [|? ? ? p h1 r' h2 ? prs' P1 L1 X2']; subst.
    set (pt := mkPt g lb p).
    assert (PE : points_of ((g, lb) :: exs) (p :: prs') = pt :: points_of exs prs') by reflexivity.
    rewrite PE in *. cbn [length outputs] in XO. binv XO. destruct v as (b & mg1). cbn [fst snd] in XO. binv XO. inversion XO; subst bs. clear XO.
    rename v into bs. cbn [answered] in XR.
    pose proof (OK ds [] c F (Forall_nil _)) as Q. rewrite EP0 in Q. inversion Q as [u w ((Sfg & L) & G1 & G2) Eu Ew| |]; subst.
    destruct u as (f & lb'). cbn [fst snd] in *. subst lb'.
    destruct (OKQ [] c _ (Forall_nil _) EP0) as (Gg & _). cbn [fst] in Gg.
    destruct (proj2 (ws_ptl_agrees dbg n (t_red st) g lb K G2) _ _ _ _ P1 L1) as (g' & EQ).
    pose proof (ws_ptl_count _ _ _ _ _ _ _ _ K Gg EQ) as CN.
    assert (K2 : elems_ok n r').
    { pose proof L1 as L2. apply ws_learn_ok in L2. pose proof (learn_shape _ _ _ _ _ _ _ _ _ _ L2) as Sh. eapply shape_elems_ok; eauto. }
    assert (MS : exists ms, mapm (fun m => metric_add m g' lb p) (t_metrics st) = Ok ms /\
                   Forall2 (fun m0 m => add_points m0 (pts0 ++ [pt]) = Ok m) ms0 ms).
    { clear - FM FA CN. revert FA. induction FM as [|m0 m ms0 ms1 Hm FM IH]; intros FA; [exists []; split; [reflexivity|constructor]|].
      inversion FA as [|? ? (mm & Hmm) FA']; subst. destruct (IH FA') as (ms & I1 & I2).
      replace (pts0 ++ pt :: points_of exs prs') with ((pts0 ++ [pt]) ++ points_of exs prs') in Hmm by now rewrite <- app_assoc.
      destruct (add_points_prefix _ _ _ _ Hmm) as (m1 & H1 & _).
      pose proof (add_points_fun _ _ _ _ _ Hm H1) as H2. unfold add_points in H2. cbn [foldm] in H2. binv H2. inversion H2; subst v. clear H2.
      exists (m1 :: ms). split; [|constructor; auto]. cbn [mapm]. unfold pt in B. cbn [pt_feats pt_label pt_pred] in B.
      replace (metric_add m g' lb p) with (metric_add m g lb p) by (destruct m; cbn [metric_add]; auto; now rewrite CN).
      rewrite B, I1. reflexivity. }
    destruct MS as (ms & MS1 & MS2).
    apply Forall2_app_inv_l in XR. destruct XR as (row0 & rows' & R0 & R1 & ->).
    pose proof (inc_columns _ _ _ _ B) as IC.
    assert (MG : exists mg2, (if b then let* vs := mapm (metric_value dbg) ms in add_results vs mg1 else Ok mg1) = Ok mg2 /\
               eqm mg1 mg2 /\ mg_columns mg2 = length ms0).
    { destruct b.
      - inversion R0 as [|? row ? ? HR R0']; subst.
        replace (pts0 ++ pt :: points_of exs prs') with ((pts0 ++ [pt]) ++ points_of exs prs') in HR by now rewrite <- app_assoc.
        assert (LP : length (pts0 ++ [pt]) = S (length pts0)) by (rewrite app_length; simpl; lia).
        destruct (row_elim dbg ms0 _ ms _ _ _ LP MS2 HR) as (V & LV).
        rewrite V. cbn [bind]. unfold add_results. rewrite LV, IC, FC, Nat.eqb_refl. eexists. split; [reflexivity|].
        split; [repeat split|]. reflexivity.
      - exists mg1. split; auto. split; [repeat split|congruence]. }
    destruct MG as (mg2 & MG1 & MG2 & MG3).
    set (st1 := mkTs r' (if tm_preds md then t_preds st ++ [p] else t_preds st) ms mg2 : tstate O n).
    assert (PG : process_example dbg md st g (Some lb) = Ok (st1, g')).
    { unfold process_example. cbn [opt_or bind]. rewrite MD, EQ. cbn [bind]. rewrite MS1. cbn [bind]. rewrite B. cbn [bind fst snd].
      rewrite MG1. reflexivity. }
    pose proof (process_sim dbg md n st g f (Some lb) (ftsim_sym _ _ Sfg)) as Q2. rewrite PG in Q2.
    inversion Q2 as [u w (E1 & S1) Eu2 Ew2| |]; subst. destruct w as (s2 & f2). cbn [fst snd] in *. subst s2.
    assert (Fd : Forall looks_new (give_back f2 (skipn (need c) ds))).
    { apply give_back_new; auto using skipn_new. eapply ftsim_wf_r; eauto. }
    assert (R1' : Forall2 (row_ms dbg ms0 ((pts0 ++ [pt]) ++ points_of exs prs')) (answered (length (pts0 ++ [pt])) bs) rows').
    { rewrite app_length. cbn [length]. rewrite Nat.add_1_r, <- app_assoc. exact R1. }
    assert (FA' : Forall (fun m0 => exists m, add_points m0 ((pts0 ++ [pt]) ++ points_of exs prs') = Ok m) ms0)
      by (now rewrite <- app_assoc).
    assert (XO' : outputs dbg (t_mgr st1) (length exs) = Ok bs) by (cbn [st1 t_mgr]; now rewrite <- (outputs_eqm dbg _ _ _ MG2)).
    destruct (IH chunks' st1 (give_back f2 (skipn (need c) ds)) (pts0 ++ [pt]) prs' bs rows' OK OKQ MD K2 Fd MS2 MG3 X1' X2' FA' XO' R1')
      as (st' & ds' & Z1 & Z2 & Z3).
    exists st', ds'. split; [|split; auto; now rewrite <- app_assoc in Z3].
    unfold train_loop. cbn [foldm]. unfold train_chunk at 1. cbn [fst snd]. rewrite <- Eu. cbn [unwrap_res bind fst snd].
    rewrite <- Ew2. cbn [bind fst snd]. exact Z1.
Qed.

Lemma loop_complete_quiet : forall dbg ps need n exs chunks (st : tstate O n) ds r',
  parser_ok ps -> Forall looks_new ds ->
  Forall2 (fun chunk ex => ps [] chunk = Ok (fst ex, Some (snd ex))) chunks exs ->
  learned dbg (t_red st) exs r' ->
  exists st' ds', train_loop dbg Proof_Train.quiet ps need chunks (st, ds) = Ok (st', ds').
Proof.
  intros dbg ps need n exs. induction exs as [|(g & lb) exs IH]; intros chunks st ds r' OK F X1 X2.
  - inversion X1; subst. exists st, ds. reflexivity.
  - inversion X1 as [|c ? chunks' ? EP0 X1' C1 C2]; subst. cbn [fst snd] in EP0. inversion X2 as [|? ? ? r1 h2 ? ? L1 X2']; subst.
    pose proof (OK ds [] c F (Forall_nil _)) as Q. rewrite EP0 in Q. inversion Q as [u w ((Sfg & L) & G1 & G2) Eu Ew| |]; subst.
    destruct u as (f & lb'). cbn [fst snd] in *. subst lb'.
    set (st1 := mkTs r1 (t_preds st) (t_metrics st) (t_mgr st) : tstate O n).
    assert (PG : process_example dbg Proof_Train.quiet st g (Some lb) = Ok (st1, h2)).
    { unfold process_example. cbn [opt_or bind Proof_Train.quiet tm_quiet tm_preds negb orb]. rewrite L1. reflexivity. }
    pose proof (process_sim dbg Proof_Train.quiet n st g f (Some lb) (ftsim_sym _ _ Sfg)) as Q2. rewrite PG in Q2.
    inversion Q2 as [u w (E1 & S1) Eu2 Ew2| |]; subst. destruct w as (s2 & f2). cbn [fst snd] in *. subst s2.
    assert (Fd : Forall looks_new (give_back f2 (skipn (need c) ds))).
    { apply give_back_new; auto using skipn_new. eapply ftsim_wf_r; eauto. }
    destruct (IH chunks' st1 _ r' OK Fd X1' X2') as (st' & ds' & Z1).
    exists st', ds'. unfold train_loop. cbn [foldm]. unfold train_chunk at 1. cbn [fst snd]. rewrite <- Eu. cbn [unwrap_res bind fst snd].
    rewrite <- Ew2. cbn [bind fst snd]. exact Z1.
Qed.

(** ** the text parser *)
Context (H : hasher) (pf : str -> option O).

Lemma parse_chunk_qgood : forall dbg seed nb ft lt ds chunk u, Forall looks_new ds ->
  parse_chunk H pf dbg seed nb ft lt ds chunk = Ok u -> qgood (fst u).
Proof.
  intros dbg seed nb ft lt ds chunk u F E. split; [eapply parse_chunk_good; eauto|].
  unfold parse_chunk in E. destruct (is_multiline ft lt) eqn:M.
  - binv E. unfold finalize_multi in E. rewrite M in E.
    destruct v as [|(l0 & g0) rest]; [discriminate|]. binv E.
    destruct (fst v); binv E; inversion E; subst; exact Logic.I.
  - binv E. destruct v as (l & d). apply parse_line_clean in B; [|now apply looks_new_clean, hd_new].
    unfold finalize_single in E. cbn [fst snd] in E. destruct l as [[x w|s a]|]; inversion E; subst; apply B.
Qed.
Lemma text_qparser : forall dbg seed nb n (r : red O n), qparser (text_parser H pf dbg seed nb r).
Proof.
  intros dbg seed nb n r ds chunk u F E. unfold text_parser in *.
  pose proof (parse_chunk_sim H pf seed nb dbg (td_in_feats (red_types r)) (td_in_label (red_types r)) chunk ds [] F (Forall_nil _)) as Q.
  split; [eapply parse_chunk_qgood; eauto|]. rewrite E in Q. inversion Q as [? v S Eu Ev| |]; subst. exists v. split; auto. split; auto.
  eapply parse_chunk_qgood; [|symmetry; exact Ev]. constructor.
Qed.

Lemma rows_named : forall dbg (names : list str) ms0 pts k row,
  mapm (fun name => opt_or PNone (@get_metric O name)) names = Ok ms0 ->
  row_ms dbg ms0 pts k row -> row_after dbg names pts k row.
Proof.
  intros dbg names ms0 pts k row E F. apply mapm_F2 in E. unfold row_after. unfold row_ms in F.
  revert row F. induction E as [|nm m0 names ms0 Hn E IH]; intros row F; inversion F; subst; constructor; auto.
  destruct H2 as (m & A & B). exists m0, m. split; auto. unfold opt_or in Hn. destruct (get_metric nm); congruence.
Qed.

Lemma train_progressive : forall gc (c : rcfg O) dbg R r md names (p : period O) seed nb ds chunks st,
  ws_new H dbg gc c = Ok R -> reach dbg (projT2 R) r -> Forall pooled ds ->
  Model_Train.train H pf dbg md seed nb names p r ds chunks = Ok st ->
  exists exs : list (example O),
    Forall2 (fun chunk ex =>
       parse_chunk H pf dbg seed nb (td_in_feats (red_types r)) (td_in_label (red_types r)) [] chunk = Ok (fst ex, Some (snd ex)))
      chunks exs /\
    learned dbg r exs (t_red st) /\
    (tm_quiet md = false \/ tm_preds md = true ->
     exists (ps : list (prediction O)) (bs : list bool), progressive dbg r exs ps /\
       t_preds st = (if tm_preds md then ps else []) /\
       outputs dbg (mgr_new p (S (length names))) (length exs) = Ok bs /\
       Forall2 (row_after dbg (name_example :: names) (points_of exs ps))
         (answered 0 bs ++ (if tm_quiet md then [] else [length exs])) (mg_rows (t_mgr st))) /\
    (tm_quiet md = true -> tm_preds md = false -> t_preds st = [] /\ mg_rows (t_mgr st) = []).
Proof.
  intros gc c dbg R r md names p seed nb ds chunks st EW RE Fd E.
  unfold Model_Train.train in E. binv E. rename v into st0. binv E. destruct v as (st1 & ds1). cbn [fst] in E.
  pose proof (reach_elems _ _ _ _ _ _ EW RE) as K.
  unfold train_start in B. binv B. rename v into ms0. inversion B; subst st0. clear B.
  assert (FM : Forall2 (fun m0 m : metric O => add_points m0 [] = Ok m) ms0 ms0) by (clear; induction ms0; constructor; auto).
  destruct (loop_progress dbg md _ _ ms0 _ chunks (mkTs r [] ms0 (mgr_new p (length ms0))) ds st1 ds1 [] (text_qparser dbg seed nb _ r) K (pooled_Forall ds Fd) FM B0)
    as (exs & X1 & X2 & X3 & X4). cbn [t_red t_preds t_mgr t_metrics app length] in *.
  exists exs. split; [exact X1|]. split; [now rewrite (end_inv _ _ _ _ _ E)|]. split.
  - intros Q. assert (MD : negb (tm_quiet md) || tm_preds md = true) by (destruct Q as [-> | ->]; [reflexivity|apply orb_true_r]).
    destruct (X3 MD) as (prs & Y1 & Y2 & YL & YM & bs & rows & YO & YR & YF).
    exists prs, bs. split; auto.
    assert (LN : length ms0 = S (length names)).
    { clear - B1. apply mapm_F2 in B1. apply F2_len in B1. simpl in B1. auto. }
    rewrite LN in *. cbn [mgr_new mg_rows app] in YR.
    assert (RN : forall k row, row_ms dbg ms0 (points_of exs prs) k row -> row_after dbg (name_example :: names) (points_of exs prs) k row)
      by (intros k row; now apply rows_named).
    assert (YF' : Forall2 (row_after dbg (name_example :: names) (points_of exs prs)) (answered 0 bs) rows)
      by (clear - YF RN; induction YF; constructor; auto).
    unfold train_end in E. destruct (tm_quiet md).
    + inversion E; subst st1. split; auto. split; auto. rewrite YR, app_nil_r. exact YF'.
    + binv E. binv E. inversion E; subst. cbn [t_preds t_mgr]. split; auto. split; auto.
      unfold add_results in B2. destruct (Nat.eqb _ _); [|discriminate]. inversion B2; subst. cbn [mg_rows].
      apply Forall2_app; auto. constructor; [|constructor]. apply RN.
      rewrite <- (app_nil_r (points_of exs prs)). eapply row_intro; [exact YL|exact YM|exact B].
  - intros Q1 Q2. rewrite Q1, Q2 in X4. cbn [negb orb] in X4. destruct (X4 eq_refl) as (Y1 & Y2).
    unfold train_end in E. rewrite Q1 in E. inversion E; subst. auto.
Qed.

Lemma named_rows : forall dbg (names : list str) ms0 pts k row,
  mapm (fun name => opt_or PNone (@get_metric O name)) names = Ok ms0 ->
  row_after dbg names pts k row -> row_ms dbg ms0 pts k row.
Proof.
  intros dbg names ms0 pts k row E F. apply mapm_F2 in E. unfold row_after in F. unfold row_ms.
  revert row F. induction E as [|nm m0 names ms0 Hn E IH]; intros row F; inversion F; subst; constructor; auto.
  destruct H2 as (m & m1 & A & B & C). exists m1. split; auto. rewrite A in Hn. cbn [opt_or] in Hn. congruence.
Qed.

Lemma train_complete : forall gc (c : rcfg O) dbg R r md names (p : period O) seed nb ds chunks
    (exs : list (example O)) ps bs rows,
  ws_new H dbg gc c = Ok R -> reach dbg (projT2 R) r -> Forall pooled ds ->
  Forall2 (fun chunk ex =>
     parse_chunk H pf dbg seed nb (td_in_feats (red_types r)) (td_in_label (red_types r)) [] chunk = Ok (fst ex, Some (snd ex)))
    chunks exs ->
  progressive dbg r exs ps ->
  Forall (fun name => exists m0 m, get_metric name = Some m0 /\ add_points m0 (points_of exs ps) = Ok m) (name_example :: names) ->
  outputs dbg (mgr_new p (S (length names))) (length exs) = Ok bs ->
  Forall2 (row_after dbg (name_example :: names) (points_of exs ps)) (answered 0 bs ++ [length exs]) rows ->
  exists st, Model_Train.train H pf dbg md seed nb names p r ds chunks = Ok st.
Proof.
  intros gc c dbg R r md names p seed nb ds chunks exs ps bs rows EW RE Fd X1 X2 FN XO XR.
  pose proof (reach_elems _ _ _ _ _ _ EW RE) as K.
  assert (EM : exists ms0, mapm (fun name => opt_or PNone (@get_metric O name)) (name_example :: names) = Ok ms0 /\
             Forall (fun m0 => exists m, add_points m0 (points_of exs ps) = Ok m) ms0).
  { clear - FN. induction FN as [|nm l (m0 & m & A & B) FN (ms0 & I1 & I2)]; [exists []; split; [reflexivity|constructor]|].
    exists (m0 :: ms0). cbn [mapm]. rewrite A. cbn [opt_or bind]. rewrite I1. split; [reflexivity|]. constructor; eauto. }
  destruct EM as (ms0 & EM & FA).
  assert (LN : length ms0 = S (length names)) by (pose proof (mapm_F2 _ _ _ _ _ EM) as Q; apply F2_len in Q; simpl in Q; auto).
  assert (PL : length (points_of exs ps) = length exs).
  { clear - X2. unfold points_of. rewrite map_length. induction X2; simpl; auto. }
  apply Forall2_app_inv_l in XR. destruct XR as (rows1 & rows2 & R1 & R2 & ->).
  assert (R1' : Forall2 (row_ms dbg ms0 ([] ++ points_of exs ps)) (answered 0 bs) rows1).
  { cbn [app]. clear - R1 EM. induction R1; constructor; auto. eapply named_rows; eauto. }
  assert (R2' : exists row, row_ms dbg ms0 (points_of exs ps) (length exs) row).
  { inversion R2 as [|? row ? ? HR]; subst. exists row. eapply named_rows; eauto. }
  destruct R2' as (row & HR).
  assert (FM : Forall2 (fun m0 m : metric O => add_points m0 [] = Ok m) ms0 ms0) by (clear; induction ms0; constructor; auto).
  unfold Model_Train.train, train_start. rewrite EM. cbn [bind]. rewrite LN.
  destruct (negb (tm_quiet md) || tm_preds md) eqn:MD.
  - destruct (loop_complete dbg md (text_parser H pf dbg seed nb r) (text_need r) ms0 _ exs chunks
        (mkTs r [] ms0 (mgr_new p (S (length names)))) ds [] ps bs rows1) as (st' & ds' & Z1 & Z2 & Z3);
      auto using text_parser_ok, text_qparser, pooled_Forall.
    rewrite Z1. cbn [bind fst]. unfold train_end. destruct (tm_quiet md); [eauto|].
    rewrite <- (app_nil_r (points_of exs ps)) in HR.
    destruct (row_elim dbg ms0 _ _ _ _ _ PL Z3 HR) as (V & LV). rewrite V. cbn [bind]. unfold add_results.
    rewrite LV, Z2, Nat.eqb_refl. cbn [bind]. eauto.
  - assert (md = Proof_Train.quiet) as -> by (destruct md as [[|] [|]]; try discriminate; reflexivity).
    assert (LL : exists r', learned dbg r exs r').
    { clear - X2. induction X2 as [|? ? ? ? ? ? ? ? ? ? ? ? (r' & I)]; [eexists; constructor|]. eexists; econstructor; eauto. }
    destruct LL as (r' & LL).
    destruct (loop_complete_quiet dbg (text_parser H pf dbg seed nb r) (text_need r) _ exs chunks
        (mkTs r [] ms0 (mgr_new p (S (length names)))) ds r') as (st' & ds' & Z1);
      auto using text_parser_ok, pooled_Forall.
    rewrite Z1. cbn [bind fst]. unfold train_end. cbn [Proof_Train.quiet tm_quiet]. eauto.
Qed.

(** the models and the predictions are determined by the examples *)
Lemma learned_fun : forall dbg n (r : red O n) l r1 r2, learned dbg r l r1 -> learned dbg r l r2 -> r1 = r2.
Proof.
  intros dbg n r l r1 r2 L1. revert r2. induction L1; intros r2 L2; inversion L2; subst; auto.
  apply IHL1. congruence.
Qed.
Lemma progressive_fun : forall dbg n (r : red O n) l p1 p2, progressive dbg r l p1 -> progressive dbg r l p2 -> p1 = p2.
Proof.
  intros dbg n r l p1 p2 L1. revert p2. induction L1; intros p2 L2; inversion L2; subst; auto.
  f_equal; [congruence|]. apply IHL1. congruence.
Qed.
End P.

(** ** example *)
From Verif Require Import FloatB32.
Lemma ex_progress : exists R st, ws_new ex_hash false ex_gc ex_cfg = Ok R /\ reach false (projT2 R) (projT2 R) /\
  Model_Train.train ex_hash ex_pf false (mkMode false true) 0 4 [name_ips; name_parsed] (Additive 1) (projT2 R) [] [ex_chunk; ex_chunk] = Ok st.
Proof.
  destruct ex_train as (R & E & T & _). exists R.
  destruct (Model_Train.train _ _ _ _ _ _ _ _ _ _ _) as [st| |] eqn:Q; [|discriminate..].
  exists st. split; auto. split; auto. constructor.
Qed.

Lemma ex_complete : exists R (exs : list (example BF0)) ps bs rows,
  ws_new ex_hash false ex_gc ex_cfg = Ok R /\
  Forall2 (fun chunk ex =>
     parse_chunk ex_hash ex_pf false 0 4 (td_in_feats (red_types (projT2 R))) (td_in_label (red_types (projT2 R))) [] chunk =
       Ok (fst ex, Some (snd ex))) [ex_chunk; ex_chunk] exs /\
  progressive false (projT2 R) exs ps /\ length ps = 2%nat /\
  Forall (fun name => exists m0 m, get_metric name = Some m0 /\ add_points m0 (points_of exs ps) = Ok m)
    [name_example; name_ips; name_parsed] /\
  outputs false (mgr_new (Additive 1 : period BF0) 3) (length exs) = Ok bs /\
  Forall2 (row_after false [name_example; name_ips; name_parsed] (points_of exs ps)) (answered 0 bs ++ [length exs]) rows.
Proof.
  destruct ex_progress as (R & st & E & RE & T).
  destruct (train_progressive ex_hash ex_pf _ _ _ _ _ _ _ _ _ _ _ _ _ E RE (Forall_nil _) T) as (exs & X1 & _ & X3 & _).
  destruct (X3 (or_introl eq_refl)) as (ps & bs & P & _ & O1 & R1). cbn [tm_quiet length] in *.
  assert (L : length exs = 2%nat) by (apply F2_len in X1; auto).
  exists R, exs, ps, bs, (mg_rows (t_mgr st)). split; auto. split; auto. split; auto. split; [|split; auto].
  - rewrite <- L. clear - P. induction P; simpl; auto.
  - apply Forall2_app_inv_l in R1. destruct R1 as (l1 & l2 & _ & R2 & _). inversion R2 as [|? row ? ? HR]; subst.
    assert (PL : length (points_of exs ps) = length exs) by (clear - P; unfold points_of; rewrite map_length; induction P; simpl; auto).
    unfold row_after in HR. rewrite <- PL, firstn_all in HR. clear - HR.
    induction HR as [|nm v l l' (m0 & m & A & B & _)]; constructor; eauto.
Qed.
