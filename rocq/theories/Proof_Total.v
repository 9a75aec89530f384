(** C24: learn and predict return. *)
From Coq Require Import List NArith ZArith Bool Lia SpecFloat.
From Verif Require Import Base FloatOps FloatB32 Model_Hash Model_Features Model_Weights Model_Loss
  Model_Interactions Model_Types Model_Explore Model_Coin Model_Stack Model_Factory
  Spec_Features Proof_Weights Proof_WeightsProps Proof_Features Proof_FeaturesHist Proof_FloatOrder Spec_Coin Proof_Coin Spec_Stack Spec_Reductions Spec_Total
  Proof_StackCong Proof_StackRestore Proof_StackPtl Proof_StackShape Proof_StackProps Proof_Types.
Import ListNotations.
Open Scope N_scope.

Section Total.
Context {O : FOps}.
Implicit Types (f g : features O) (a b : sfeats O).

(** ** a regressor keeps its invariants whatever it learns *)
Lemma upd_wf : forall dbg (w : dweights O) fi mi u w', dw_wf w ->
  (forall st st', u st = Ok st' -> length st' = length st) ->
  dw_state_upd dbg w fi mi u = Ok w' -> dw_wf w'.
Proof.
  intros dbg w fi mi u w' W G H. unfold dw_state_upd in H. binv H. binv H. binv H. inversion H; subst.
  apply slice_inv in B0. destruct B0 as (L1 & _ & L2). apply G in B1.
  unfold dw_wf in *. simpl. rewrite write_slice_length by lia. exact W.
Qed.

Lemma inner_update_len : forall cfg avg u x (st st' : list O), inner_update cfg avg u x st = Ok st' -> length st' = length st.
Proof.
  intros cfg avg u x st st' H. unfold inner_update in H. destruct (Nat.eqb (length st) 6) eqn:E; [|discriminate].
  apply Nat.eqb_eq in E. inversion H; subst. now rewrite E.
Qed.

Context (FO : ford O).

Definition cgood (dbg : bool) (fs : N) (c : coin O) : Prop :=
  cwf dbg c /\ dw_fsize (co_w c) = fs /\ f_leb O (co_min c) (co_max c) = true.

Lemma coin_learn_keep : forall dbg fs (c : coin O) (f : sfeats O) v w c', cgood dbg fs c -> coin_learn dbg c f v w = Ok c' ->
  cgood dbg fs c'.
Proof.
  intros dbg fs c f v w c' (W & F & R) H. pose proof (coin_learn_shape _ _ _ _ _ _ H) as S.
  pose proof H as H'. unfold coin_learn in H'. binv H'. destruct v0 as (p & c1).
  unfold coin_betting_predict in B. binv B. binv B. binv B. binv B. inversion B; subst. clear B.
  unfold coin_update in H'. binv H'. binv H'. inversion H'; subst. clear H'.
  destruct S as ((S1 & S2 & S3 & S4 & S5) & _). simpl in *.
  split; [|split; [simpl; congruence|simpl; now apply range_step]].
  destruct W as [W1 W2 W3 W4 W5]. constructor; simpl.
  - refine (foldm_inv _ _ (@dw_wf O) _ _ _ _ _ _ B4); auto.
    intros [i x] w1 w2 _ Hb E. eapply upd_wf; [exact Hb| |exact E]. intros; eapply inner_update_len; eauto.
  - rewrite <- S1. auto.
  - congruence.
  - rewrite <- S2. auto.
  - destruct (co_states c); [congruence|discriminate].
Qed.

(** ** lifted to stacks *)
Lemma learn_bottom : forall dbg fs n (r : red O n) f lb d mo r' f' d',
  learn dbg n r f lb d mo = Ok (r', f', d') -> cgood dbg fs (bottom n r) -> cgood dbg fs (bottom n r').
Proof.
  induction n as [|n IH]; intros r f lb d mo r' f' d' H.
  - destruct r as (w & c). cbn [learn] in H. apply wrap_ok in H. destruct H as (d1 & d2 & H).
    binv H. destruct v as ((c' & g) & e). inversion H; subst. unfold coin_learn_body in B. binv B. binv B. binv B.
    inversion B; subst. simpl. intros G. eapply coin_learn_keep; eauto.
  - destruct r as ((w & k) & ch). cbn [learn] in H. apply wrap_ok in H. destruct H as (d1 & d2 & H).
    binv H. destruct v as (((k' & ch') & g) & e). inversion H; subst. clear H. cbn [bottom snd].
    refine (proj2 (kind_learn_shape _ (fun a b : red O n => cgood dbg fs (bottom n a) -> cgood dbg fs (bottom n b))
      _ _ _ _ _ _ _ _ _ _ _ _ _ _ _ B)); eauto.
Qed.

Lemma ptl_bottom : forall dbg fs n (r : red O n) f lb d mo p r' f' d',
  predict_then_learn dbg n r f lb d mo = Ok ((p, r'), f', d') -> cgood dbg fs (bottom n r) -> cgood dbg fs (bottom n r').
Proof.
  induction n as [|n IH]; intros r f lb d mo p r' f' d' H.
  - destruct r as (w & c). cbn [predict_then_learn] in H. apply wrap_ok in H. destruct H as (d1 & d2 & H).
    binv H. destruct v as (((p' & c') & g) & e). inversion H; subst. apply default_ptl_inv in B. destruct B as (g & e & B).
    unfold coin_learn_body in B. binv B. binv B. binv B.
    inversion B; subst. simpl. intros G. eapply coin_learn_keep; eauto.
  - destruct r as ((w & k) & ch). cbn [predict_then_learn] in H. apply wrap_ok in H. destruct H as (d1 & d2 & H).
    binv H. destruct v as (((p' & (k' & ch')) & g) & e). inversion H; subst. clear H. cbn [bottom snd].
    assert (DF : forall l, default_ptl (fun f d => kind_predict dbg k (predict dbg n ch) f d mo) l f d1 = Ok (p, (k', ch'), f', d2) ->
       l = (fun f d => kind_learn dbg k (learn dbg n) ch f lb d mo) ->
       cgood dbg fs (bottom n ch) -> cgood dbg fs (bottom n ch')).
    { intros l E ->. apply default_ptl_inv in E. destruct E as (g & e & E).
      refine (proj2 (kind_learn_shape _ (fun a b : red O n => cgood dbg fs (bottom n a) -> cgood dbg fs (bottom n b))
        _ _ _ _ _ _ _ _ _ _ _ _ _ _ _ E)); eauto using learn_bottom. }
    destruct k; cbn [kind_ptl] in B; try (eapply DF; [exact B|reflexivity]).
    + binv B. binv B. destruct v0 as (((p0 & c0) & g) & e). binv B. inversion B; subst. eapply IH; eauto.
    + binv B. destruct v as (((p0 & c0) & g) & e). inversion B; subst. apply elem_frame_inv in B0.
      destruct B0 as (g0 & g1 & B0). eapply IH; eauto.
    + binv B. destruct v as (((p0 & c0) & g) & e). inversion B; subst. eapply IH; eauto.
Qed.

Lemma create_bottom : forall H dbg gc nma (c : rcfg O) R n, 0 < nma < 2 ^ 8 -> create H dbg gc nma c = Ok R ->
  bits_to_max_feature_index dbg (gc_bits gc) = Ok n ->
  cgood dbg n (bottom (projT1 R) (projT2 R)).
Proof.
  intros H dbg gc nma c R n Hn. revert R.
  induction c; intros R E Hb; cbn [create] in E; try discriminate;
    try (binv E; apply add_level_ok in E; destruct E as (-> & _); cbn [projT1 projT2 bottom snd]; apply IHc; auto; fail).
  - binv E. inversion E; subst. cbn [projT1 projT2 bottom snd].
    destruct (coin_new_wf _ _ _ _ _ _ B Hn) as (W & F & _).
    split; auto. split; [congruence|]. exact (ci_range _ _ _ _ (cinv_init FO _ _ _ _ _ _ B Hn)).
  - assert (E' : (let* ch := create H dbg gc nma c in add_level nma td_explore (KSquareCb ueps gscale gexp 0) ch) = Ok R).
    { destruct c; auto. destruct ty; auto. discriminate. }
    clear E. rename E' into E. binv E. apply add_level_ok in E. destruct E as (-> & _).
    cbn [projT1 projT2 bottom snd]. apply IHc; auto.
Qed.

Lemma reach_bottom : forall H dbg gc (c : rcfg O) R r n, ws_new H dbg gc c = Ok R -> reach dbg (projT2 R) r ->
  bits_to_max_feature_index dbg (gc_bits gc) = Ok n -> cgood dbg n (bottom (projT1 R) r).
Proof.
  intros H dbg gc c R r n E Q Hb. assert (I0 : cgood dbg n (bottom (projT1 R) (projT2 R))).
  { eapply create_bottom; [|exact E|exact Hb]. split; reflexivity. }
  clear E Hb. induction Q; auto.
  - unfold ws_learn in H0. binv H0. destruct v as ((r1 & g) & e). inversion H0; subst. eapply learn_bottom; eauto.
  - unfold ws_ptl in H0. binv H0. destruct v as (((p1 & r1) & g) & e). inversion H0; subst. eapply ptl_bottom; eauto.
Qed.

(** ** features *)
Definition allf (P : N -> O -> Prop) a : Prop := forall i v, In (i, v) (sf_all a) -> P i v.

Lemma in_all : forall a i v, fwf a -> (In (i, v) (sf_all a) <-> exists k s, fm_get k a = Some s /\ In (i, v) (sfn_iter s)).
Proof.
  intros a i v (S & _). unfold sf_all. rewrite in_flat_map. split.
  - intros ((k & s) & H1 & H2). exists k, s. split; auto. now apply fm_in_get.
  - intros (k & s & H1 & H2). exists (k, s). split; auto. now apply fm_get_in.
Qed.

Lemma combine_app' : forall A B (x1 x2 : list A) (y1 y2 : list B), length x1 = length y1 ->
  combine (x1 ++ x2) (y1 ++ y2) = combine x1 y1 ++ combine x2 y2.
Proof. induction x1; intros x2 [|b y1] y2 H; simpl in *; try discriminate; auto. f_equal. apply IHx1. lia. Qed.

Lemma allf_append : forall P a b r, fwf a -> fwf b -> allf P a -> allf P b -> sf_append a b = Ok r -> allf P r.
Proof.
  intros P a b r Wa Wb Pa Pb H i v Hin. destruct (append_get a b Wa Wb) as (r0 & E & Wr & G).
  rewrite H in E. inversion E; subst r0. clear E.
  apply in_all in Hin; auto. destruct Hin as (k & s & E & Hin). rewrite G in E.
  destruct (fm_get k b) as [t|] eqn:Eb.
  - destruct (sfn_active t).
    + inversion E; subst s. clear E. unfold sfn_iter, sfn_cat in Hin. cbn [sfn_idx sfn_val] in Hin.
      destruct (item_wf k a Wa) as (_ & L). rewrite combine_app' in Hin by auto.
      apply in_app_iff in Hin. destruct Hin as [Hin|Hin].
      * unfold item in Hin. destruct (fm_get k a) as [s|] eqn:Ea; [|contradiction].
        apply Pa. apply in_all; auto. eauto.
      * apply Pb. apply in_all; auto. eauto.
    + apply Pa. apply in_all; auto. eauto.
  - apply Pa. apply in_all; auto. eauto.
Qed.

(** an example that is fit for learning *)
Definition fit (dbg : bool) (n : N) (i : N) (v : O) : Prop := i < n /\ (dbg = true -> f_eqb O v v = true).
Definition fits dbg n f : Prop := forall a, In a (parts f) -> allf (fit dbg n) a.
Definition sgood f : Prop := good f /\ match f with FtsSimple a => noraw a | _ => True end.

Lemma val_in : forall k (s : sfn O) v, sfn_wf k s -> In v (sfn_val s) -> exists i, In (i, v) (sfn_iter s).
Proof.
  intros k [n i v a] x (_ & L) H. unfold sfn_iter in *. simpl in *. revert v L H.
  induction i as [|j i IH]; intros [|y v] L H; simpl in *; try discriminate; try contradiction.
  destruct H as [->|H]; [eauto|]. destruct (IH v) as (q & Q); auto. eauto.
Qed.

Lemma self_eq : forall n eps a, fwf a -> allf (fit true n) a -> sf_absdiffeq eps a a = true.
Proof.
  intros n eps a W P. unfold sf_absdiffeq. rewrite (proj2 (list_eqb_ns _ _)) by reflexivity.
  apply forallb_forall. intros k Hk. apply in_active_keys in Hk; [|apply W]. destruct Hk as (s & E & _). rewrite E.
  unfold sfn_absdiffeq. rewrite ns_eqb_refl. simpl.
  assert (L : list_eqb N.eqb (sfn_idx s) (sfn_idx s) = true).
  { induction (sfn_idx s); simpl; auto. now rewrite N.eqb_refl. }
  rewrite L. simpl. apply forallb_forall. intros (x & y) Hxy.
  assert (x = y /\ In x (sfn_val s)) as (<- & Hx).
  { clear - Hxy. induction (sfn_val s); simpl in *; [contradiction|]. destruct Hxy as [Q|Q]; [inversion Q; auto|].
    apply IHl in Q. tauto. }
  destruct (val_in k s x) as (i & Hi); auto; [now apply W|].
  assert (Q : f_eqb O x x = true). { apply (P i x); auto. apply in_all; eauto. }
  simpl. unfold f_absdiffeq. now rewrite Q.
Qed.

Lemma fts_self_eq : forall n eps f, ftwf f -> fits true n f -> fts_absdiffeq eps f f = true.
Proof.
  intros n eps [a|s x] W P; simpl in *.
  - apply (self_eq n); auto. apply P. now left.
  - destruct W as (Ws & Wx). rewrite Nat.eqb_refl, andb_true_r.
    assert (F : forallb (fun p => sf_absdiffeq eps (fst p) (snd p)) (combine x x) = true).
    { apply forallb_forall. intros (u & v) H. assert (u = v /\ In u x) as (<- & Hu).
      { clear - H. induction x; simpl in *; [contradiction|]. destruct H as [Q|Q]; [inversion Q; auto|].
        apply IHx in Q. tauto. }
      simpl. apply (self_eq n).
      - eapply Forall_forall in Wx; eauto.
      - apply P. destruct s; simpl; auto. }
    rewrite F, andb_true_r. destruct s as [sh|]; auto. apply (self_eq n); auto. apply P. now left.
Qed.

Lemma sgood_ftsim : forall f f', sgood f -> fr f f' -> ftsim f f'.
Proof.
  intros [a|s x] [a'|s' x'] (G & N) H; simpl in *; try tauto. now apply rr_fsim.
Qed.

(** the debug comparison succeeds *)
Lemma check_ok : forall dbg n f f', sgood f -> fits dbg n f -> fr f f' ->
  dbg && negb (fts_absdiffeq f32_eps f' f) = false.
Proof.
  intros dbg n f f' G P R. destruct dbg; auto. simpl. apply negb_false_iff.
  pose proof (good_wf f (proj1 G)) as W.
  rewrite (ftsim_absdiffeq _ f' f f f); [now apply (fts_self_eq n)| |now apply ftsim_refl].
  apply ftsim_sym. now apply sgood_ftsim.
Qed.

Lemma wrap_total : forall X dbg n nmb f d (body : features O -> N -> out (pres O X)) x f',
  d < 256 -> sgood f -> fits dbg n f -> body f d = Ok (x, f', d) -> fr f f' ->
  wrap dbg nmb 0 f d body = Ok (x, f', d).
Proof.
  intros X dbg n nmb f d body x f' Hd G P E R. apply wrap0_ok; auto. split; auto. eapply check_ok; eauto.
Qed.

(** appending, calling and removing *)
Lemma around_total : forall dbg n a b, fwf a -> noraw a -> allf (fit dbg n) a -> fwf b -> noraw b -> allf (fit dbg n) b ->
  exists a1, sf_append a b = Ok a1 /\ sgood (FtsSimple a1) /\ fits dbg n (FtsSimple a1) /\
    forall f', fr (FtsSimple a1) f' -> exists a2, sf_remove dbg (back_simple a1 f') b = Ok a2.
Proof.
  intros dbg n a b Wa Na Pa Wb Nb Pb.
  destruct (append_remove_sim dbg a b Wa Wb) as (r & r' & E1 & E2 & W1 & W2 & _).
  exists r. split; auto. assert (Nr : noraw r) by (apply (append_noraw a b); auto).
  split; [split; simpl; auto|]. split.
  - intros u [<-|[]]. apply (allf_append _ a b); auto.
  - intros [u|? ?] R; simpl in *; [|tauto].
    assert (S : fsim r u) by (apply rr_fsim; auto).
    pose proof (fsim_remove2 dbg r u b b S (fsim_refl b Wb)) as Q. rewrite E2 in Q. inversion Q; subst; eauto.
Qed.

Lemma around_opt : forall dbg n s x a, cbok s x -> fits dbg n (FtsCb s x) -> In a x ->
  exists a1, append_opt a s = Ok a1 /\ sgood (FtsSimple a1) /\ fits dbg n (FtsSimple a1) /\
    forall f', fr (FtsSimple a1) f' -> exists a2, remove_opt dbg (back_simple a1 f') s = Ok a2.
Proof.
  intros dbg n s x a (C1 & C2) P Ha. assert (Wa : fwf a /\ noraw a) by (eapply Forall_forall in C1; eauto).
  destruct Wa as (Wa & Na). destruct s as [sh|]; simpl.
  - destruct C2 as (Ws & Ns & _). apply around_total; auto; apply P; simpl; auto.
  - exists a. split; auto. split; [split; simpl; auto|]. split; eauto.
    intros u [<-|[]]. apply P. simpl. auto.
Qed.

Lemma cbok_tail : forall s a x, cbok s (a :: x) -> cbok s x.
Proof.
  intros s a x (C1 & C2). split; [now inversion C1|]. destruct s; auto. destruct C2 as (A & B & C). split; auto. split; auto.
  intros; apply C; now right.
Qed.
Lemma fits_tail : forall dbg n s a x, fits dbg n (FtsCb s (a :: x)) -> fits dbg n (FtsCb s x).
Proof. intros dbg n s a x P u Hu. apply P. destruct s; simpl in *; tauto. Qed.

(** ** what the types say about stacks that take simple labels or features *)
Lemma typed_simple : forall n (r : red O n), typed n r -> td_in_label (red_types r) <> LTCb ->
  uses_mtr r = false /\ counters n r = [] /\ uses_weighted r = false.
Proof.
  induction n as [|n IH]; intros r T L; [auto|].
  destruct r as ((w & k) & ch). destruct T as (T1 & T2 & T3). pose proof (td_good _ _ T3) as (G1 & G2 & G3).
  change (red_types (n := S n) (w, k, ch)) with (w_types w) in L. rewrite T2 in *.
  unfold uses_mtr, uses_weighted. cbn [some_kind counters fst snd].
  destruct k; cbn [kind_td td_in_label td_out_label td_cb_adf td_explore] in *; try congruence; inversion G1 as [G]; cbn [orb app];
    apply IH; auto; rewrite <- ?G; congruence.
Qed.

Definition kelem (k : kind O) : bool := match k with KElem _ _ _ _ => true | _ => false end.
Lemma shape_elem : forall n (r r' : red O n), shape n r r' -> uses_elem r' = uses_elem r.
Proof.
  induction n as [|n IH]; intros r r' S; auto. destruct S as (_ & S1 & S2). unfold uses_elem in *. simpl.
  rewrite (IH _ _ S2). destruct (snd (fst r)), (snd (fst r')); simpl in S1; try tauto; reflexivity.
Qed.
Lemma shape_mtr : forall n (r r' : red O n), shape n r r' -> uses_mtr r' = uses_mtr r.
Proof.
  induction n as [|n IH]; intros r r' S; auto. destruct S as (_ & S1 & S2). unfold uses_mtr in *. simpl.
  rewrite (IH _ _ S2). destruct (snd (fst r)), (snd (fst r')); simpl in S1; subst; try tauto; reflexivity.
Qed.
Lemma shape_weighted : forall n (r r' : red O n), shape n r r' -> uses_weighted r' = uses_weighted r.
Proof.
  induction n as [|n IH]; intros r r' S; auto. destruct S as (_ & S1 & S2). unfold uses_weighted in *. simpl.
  rewrite (IH _ _ S2). destruct (snd (fst r)), (snd (fst r')); simpl in S1; subst; try tauto; reflexivity.
Qed.
Lemma shape_typed : forall n (a b : red O n), shape n a b -> typed n a -> typed n b /\ red_types b = red_types a.
Proof.
  induction n as [|n IHn]; intros a b Sh Ta.
  - destruct Sh as (E1 & _). simpl in *. unfold red_types, red_w in *. rewrite <- E1. auto.
  - destruct a as ((w & k) & ch), b as ((w' & k') & ch'). destruct Sh as (E1 & E2 & E3). cbn [fst snd] in *. subst w'.
    destruct Ta as (T1 & T2 & T3). destruct (IHn _ _ E3 T1) as (T4 & T5). split; [|reflexivity].
    split; [exact T4|]. rewrite T5. split; [|exact T3]. rewrite T2. destruct k, k'; simpl in E2; try tauto; reflexivity.
Qed.
Lemma noelem_ok : forall n (r : red O n), uses_elem r = false -> elems_ok n r.
Proof.
  induction n as [|n IH]; intros r H; [exact I|]. unfold uses_elem in *. simpl in H. apply orb_false_elim in H.
  split; [|apply IH; apply H]. destruct (snd (fst r)); simpl in *; auto. destruct H; discriminate.
Qed.

(** ** learn *)
Definition inv (dbg : bool) (fs : N) (n : nat) (r : red O n) : Prop :=
  typed n r /\ uses_elem r = false /\ cgood dbg fs (bottom n r).
Definition lab_ok (dbg : bool) (n : nat) (r : red O n) f (lb : label O) : Prop :=
  (uses_mtr r = true -> mtr_example f lb) /\
  (dbg = true -> prob_pos lb) /\
  (dbg = true -> has_room (num_actions f) (counters n r)).

Lemma lab_simple : forall dbg n (r : red O n) f x y, typed n r -> td_in_label (red_types r) = LTSimple ->
  lab_ok dbg n r f (LbSimple x y).
Proof.
  intros dbg n r f x y T L. destruct (typed_simple n r T) as (E1 & E2 & _); [congruence|].
  unfold lab_ok. rewrite E1, E2. split; [discriminate|]. split; [simpl; auto|]. intros _ c [].
Qed.

Lemma add64_ok : forall dbg x y, (dbg = true -> x + y < u64_mod) -> exists z, add64 dbg x y = Ok z.
Proof.
  intros dbg x y H. unfold add64. destruct (x + y <? u64_mod) eqn:E; eauto. destruct dbg; eauto.
  apply N.ltb_ge in E. specialize (H eq_refl). lia.
Qed.

Lemma inv_step : forall dbg fs n (r : red O n) f lb d mo r' f' d', inv dbg fs n r ->
  learn dbg n r f lb d mo = Ok (r', f', d') -> inv dbg fs n r' /\ red_types r' = red_types r.
Proof.
  intros dbg fs n r f lb d mo r' f' d' (T & E & C) H. pose proof (learn_shape _ _ _ _ _ _ _ _ _ _ H) as S.
  destruct (shape_typed _ _ _ S T) as (T' & Q). split; auto. split; auto. split; [now rewrite (shape_elem _ _ _ S)|].
  eapply learn_bottom; eauto.
Qed.

Lemma ips_total : forall dbg fs n act cost prob s x i (ch : red O n) d,
  (forall (r : red O n) f lb, inv dbg fs n r -> sgood f -> fits dbg fs f -> feat_type_of f = td_in_feats (red_types r) ->
     label_type_of lb = td_in_label (red_types r) -> lab_ok dbg n r f lb ->
     exists r' f', learn dbg n r f lb d 0 = Ok (r', f', d) /\ fr f f') ->
  d < 256 -> inv dbg fs n ch -> td_in_feats (red_types ch) = FTSimple -> td_in_label (red_types ch) = LTSimple ->
  cbok s x -> fits dbg fs (FtsCb s x) -> (dbg = true -> f_gtb prob f0 = true) ->
  exists ch' acts, cb_ips_loop dbg (learn dbg n) act cost prob s x i ch d = Ok (ch', acts, d).
Proof.
  intros dbg fs n act cost prob s x i ch d IH Hd. revert i ch. induction x as [|a x IHx]; intros i ch I Tf Tl C P Hp; simpl.
  - eauto.
  - destruct (around_opt dbg fs s (a :: x) a C P) as (a1 & E1 & G1 & P1 & R1); [now left|]. rewrite E1. cbn [bind].
    assert (exists y z, ips_label dbg act cost prob i = Ok (LbSimple y z)) as (y & z & El).
    { unfold ips_label. destruct (i =? act); eauto. destruct dbg; simpl; eauto. rewrite Hp by auto. simpl. eauto. }
    rewrite El. cbn [bind].
    destruct (IH ch (FtsSimple a1) (LbSimple y z)) as (ch' & f' & E2 & R2); auto.
    { apply lab_simple; auto. apply I. }
    rewrite E2. cbn [bind]. destruct (R1 f' R2) as (a2 & E3). rewrite E3. cbn [bind].
    destruct (inv_step _ _ _ _ _ _ _ _ _ _ _ I E2) as (I' & Q).
    destruct (IHx (i + 1) ch') as (ch'' & acts & E4); auto; try congruence.
    { eapply cbok_tail; eauto. } { eapply fits_tail; eauto. }
    rewrite E4. cbn [bind]. eauto.
Qed.

Context (F1 : f_gtb (@f1 O) f0 = true).

Lemma learn_total : forall dbg fs n d, d < 256 -> forall (r : red O n) f lb, inv dbg fs n r -> sgood f -> fits dbg fs f ->
  feat_type_of f = td_in_feats (red_types r) -> label_type_of lb = td_in_label (red_types r) -> lab_ok dbg n r f lb ->
  exists r' f', learn dbg n r f lb d 0 = Ok (r', f', d) /\ fr f f'.
Proof.
  intros dbg fs n d Hd. induction n as [|n IH]; intros r f lb I G P Tf Tl L.
  - destruct r as (w & c). destruct I as (T & _ & (W & Fs & Rg)). simpl in T, W, Fs, Rg. rewrite T in Tf, Tl. simpl in Tf, Tl.
    destruct f as [a|]; [|discriminate]. destruct lb as [y wt| |]; try discriminate.
    assert (B : below (dw_fsize (co_w c)) a).
    { intros i v Hin. rewrite Fs. destruct (P a (or_introl eq_refl) i v Hin) as (Q & _). exact Q. }
    destruct (learn_ok dbg c a y wt W B) as (c' & l & p & cb & u & E & _); [now apply range_step|].
    exists (w, c'), (FtsSimple a).
    assert (R : fr (FtsSimple a) (FtsSimple a)) by (apply fr_refl; apply G). split; auto.
    cbn [learn]. apply (wrap_total _ dbg fs); auto. cbn [bind]. unfold coin_learn_body. cbn [as_simple as_simple_label bind fst snd]. rewrite E. reflexivity.
  - destruct r as ((w & k) & ch). 
    assert (RS : forall k' ch' f', kind_learn dbg k (learn dbg n) ch f lb d 0 = Ok ((k', ch'), f', d) ->
              exists r' f', learn dbg (S n) (w, k, ch) f lb d 0 = Ok (r', f', d) /\ fr f f').
    { intros k' ch' f' E. exists (w, k', ch'), f'.
      assert (R : fr f f').
      { refine (proj2 (kind_learn_restore _ (elems_ok n) dbg k (learn dbg n) ch f lb d 0 k' ch' f' d _ (proj1 G) _ _ E)).
        - destruct I as (_ & I & _). apply noelem_ok in I. apply I.
        - destruct I as (_ & I & _). apply noelem_ok in I. apply I.
        - intros. eapply learn_restore; eauto. }
      split; auto. cbn [learn]. apply (wrap_total _ dbg fs); auto. rewrite E. reflexivity. }
    destruct I as (T & El & C). pose proof T as (T1 & T2 & T3). pose proof (td_good _ _ T3) as (G1 & G2 & G3).
    unfold uses_elem in El. cbn [some_kind fst snd] in El. apply orb_false_elim in El. destruct El as (El1 & El2).
    assert (Ic : inv dbg fs n ch) by (split; [exact T1|split; [exact El2|exact C]]).
    change (red_types (n := S n) (w, k, ch)) with (w_types w) in Tf, Tl. rewrite T2 in Tf, Tl, G1, G2, G3.
    destruct L as (L1 & L2 & L3). unfold uses_mtr in L1. cbn [some_kind fst snd counters] in L1, L3.
    destruct k; try discriminate; cbn [kind_td td_in_feats td_in_label td_out_label td_out_feats td_in_pred td_cb_adf td_explore] in *;
      inversion G1 as [G1']; inversion G2 as [G2'].
    + (* binary *)
      destruct lb as [|b|]; try discriminate.
      destruct (IH ch f (binary_label b)) as (ch' & f' & E & R); auto. { apply lab_simple; auto. }
      eapply RS. simpl. rewrite E. reflexivity.
    + (* contextual bandit *)
      destruct f as [|s x]; try discriminate. destruct lb as [| |act cost prob]; try discriminate.
      destruct G as (G & _). simpl in G.
      destruct ty.
      * destruct (ips_total dbg fs n act cost prob s x 0 ch d) as (ch' & acts & E); auto.
        eapply RS. cbn [kind_learn as_cb as_cb_label bind fst snd]. rewrite E. reflexivity.
      * destruct L1 as (sh & x' & act' & c' & p' & Q1 & Q2 & Q3); auto. inversion Q1; subst. inversion Q2; subst. clear Q1 Q2.
        rename x' into x, act' into act, c' into cost, p' into prob.
        destruct (nth_error x (N.to_nat act)) as [a|] eqn:Ea; [|apply nth_error_None in Ea; lia].
        assert (Ia : In a x) by (eapply nth_error_In; eauto). destruct G as (G4 & G5 & G6 & _).
        assert (Wa : fwf a /\ noraw a) by (eapply Forall_forall in G4; eauto). destruct Wa as (Wa & Na).
        destruct (around_total dbg fs sh a) as (s1 & E1 & Gs & Ps & Rs); auto; try (apply P; simpl; auto).
        destruct (add64_ok dbg action_sum (N.of_nat (length x))) as (as' & Ea1).
        { intros D. specialize (L3 D action_sum). cbn [num_actions] in L3. specialize (L3 ltac:(simpl; auto)). lia. }
        destruct (add64_ok dbg event_sum 1) as (es' & Ea2).
        { intros D. specialize (L3 D event_sum). cbn [num_actions] in L3. specialize (L3 ltac:(simpl; auto)). lia. }
        destruct (IH ch (FtsSimple s1) (LbSimple cost (f_mul O (f_div O f1 prob) (f_div O (f_of_N es') (f_of_N as')))))
          as (ch' & f' & E & R); auto. { apply lab_simple; auto. }
        destruct (Rs f' R) as (s2 & E2).
        eapply RS. cbn [kind_learn as_cb as_cb_label bind fst snd]. rewrite Ea1. cbn [bind]. rewrite Ea2. cbn [bind].
        rewrite Ea. cbn [opt_or bind]. rewrite E1. cbn [bind]. rewrite E. cbn [bind]. rewrite E2. reflexivity.
    + destruct (IH ch f lb) as (ch' & f' & E & R); auto; try congruence. { split; auto. }
      eapply RS. simpl. rewrite E. reflexivity.
    + destruct (IH ch f lb) as (ch' & f' & E & R); auto; try congruence. { split; auto. }
      eapply RS. simpl. rewrite E. reflexivity.
    + destruct lb as [| |act cost prob]; try discriminate.
      destruct (IH ch f (LbCb act cost f1)) as (ch' & f' & E & R); auto; try congruence.
      { split; [|split].
        - intros Q. destruct (L1 Q) as (sh & x & a & c & p & Q1 & Q2 & Q3). inversion Q2; subst. repeat eexists. exact Q3.
        - intros _. exact F1.
        - intros D c Hc. apply (L3 D). simpl. auto. }
      destruct (add64_ok dbg counter 1) as (cn & Ec).
      { intros D. specialize (L3 D counter ltac:(simpl; auto)). lia. }
      eapply RS. cbn [kind_learn as_cb_label bind]. rewrite E. cbn [bind]. rewrite Ec. reflexivity.
    + destruct (IH ch f lb) as (ch' & f' & E & R); auto; try congruence. { split; auto. }
      eapply RS. simpl. rewrite E. reflexivity.
Qed.

(** ** predict *)
Definition nscores f (p : prediction O) : Prop :=
  match p with PrScores l => length l = N.to_nat (num_actions f) | _ => True end.

Lemma coin_predict_ok : forall dbg fs c a, cgood dbg fs c -> below fs a -> exists x y, coin_predict dbg c a = Ok (PrScalar x y).
Proof.
  intros dbg fs c a (W & Fs & R) B. subst fs.
  destruct (feats_ok dbg c a W B) as (l & El & Bl). unfold coin_predict. rewrite El. cbn [bind].
  rewrite dot_ok by auto. cbn [bind]. unfold f_clamp. rewrite R. cbn [bind]. eauto.
Qed.

Lemma cb_predict_total : forall dbg fs n (ch : red O n) s x i d,
  (forall f, sgood f -> fits dbg fs f -> feat_type_of f = FTSimple ->
     exists p f', predict dbg n ch f d 0 = Ok (p, f', d) /\ fr f f' /\ pred_type_of p = PTScalar) ->
  cbok s x -> fits dbg fs (FtsCb s x) ->
  exists scores acts, cb_predict_loop dbg (predict dbg n ch) s x i d = Ok (scores, acts, d) /\ length scores = length x.
Proof.
  intros dbg fs n ch s x i d IH. revert i. induction x as [|a x IHx]; intros i C P; simpl.
  - exists [], []. auto.
  - destruct (around_opt dbg fs s (a :: x) a C P) as (a1 & E1 & G1 & P1 & R1); [now left|]. rewrite E1. cbn [bind].
    destruct (IH (FtsSimple a1)) as (p & f' & E2 & R2 & T2); auto. rewrite E2. cbn [bind].
    destruct p as [u v|?|?|?]; try discriminate. cbn [as_scalar bind snd].
    destruct (R1 f' R2) as (a2 & E3). rewrite E3. cbn [bind].
    destruct (IHx (i + 1)) as (sc & acts & E4 & L4). { eapply cbok_tail; eauto. } { eapply fits_tail; eauto. }
    rewrite E4. cbn [bind]. repeat eexists. simpl. now rewrite L4.
Qed.

Lemma min_by_from_in : forall l (b : N * (N * O)), exists x, min_by_from gt_total b l = Ok x /\ In x (b :: l).
Proof.
  induction l as [|y l IH]; intros b; simpl; [eauto|].
  destruct (IH (if f_gtb (snd (snd b)) (snd (snd y)) then y else b)) as (x & E & H). exists x. split; auto.
  destruct (f_gtb (snd (snd b)) (snd (snd y))); simpl in H; tauto.
Qed.

Lemma greedy_total : forall (eps : O) l, l <> [] -> exists pr, greedy_probs eps l = Ok pr.
Proof.
  intros eps l N. unfold greedy_probs, min_by. destruct (enum_from 0 l) as [|b r] eqn:E.
  - destruct l; [congruence|discriminate].
  - destruct (min_by_from_in r b) as (x & Ex & Hx). rewrite Ex. cbn [bind]. rewrite <- E in Hx. clear Ex E.
    assert (Q : exists k, nth_error (enum_from 0 l) k = Some x) by (apply In_nth_error; auto). destruct Q as (k & Q).
    rewrite enum_from_nth in Q. destruct (nth_error l k) as [y|] eqn:Ek; [|discriminate].
    assert (Hk : N.to_nat (fst x) = k) by (inversion Q; subst; simpl; lia). rewrite Hk.
    rewrite (map_nth_error _ _ _ Ek). eauto.
Qed.

Lemma predict_total : forall dbg fs n d, d < 256 -> forall (r : red O n) f, inv dbg fs n r -> uses_weighted r = false ->
  sgood f -> fits dbg fs f -> feat_type_of f = td_in_feats (red_types r) ->
  (td_out_pred (red_types r) = PTProbs -> num_actions f <> 0) ->
  exists p f', predict dbg n r f d 0 = Ok (p, f', d) /\ fr f f' /\ pred_type_of p = td_out_pred (red_types r) /\ nscores f p.
Proof.
  intros dbg fs n d Hd. induction n as [|n IH]; intros r f I U G P Tf NE.
  - destruct r as (w & c). destruct I as (T & _ & C). simpl in T, C. rewrite T in Tf. simpl in Tf.
    destruct f as [a|]; [|discriminate].
    destruct (coin_predict_ok dbg fs c a) as (x & y & E); auto. { intros i v H. apply (P a (or_introl eq_refl) i v H). }
    assert (R : fr (FtsSimple a) (FtsSimple a)) by (apply fr_refl; apply G).
    exists (PrScalar x y), (FtsSimple a). split; [|split; [auto|split; [rewrite T; reflexivity|exact I]]].
    cbn [predict]. apply (wrap_total _ dbg fs); auto. unfold coin_predict_body. cbn [as_simple bind fst snd]. rewrite E. reflexivity.
  - destruct r as ((w & k) & ch).
    assert (RS : forall p f', kind_predict dbg k (predict dbg n ch) f d 0 = Ok (p, f', d) -> nscores f p ->
              exists p f', predict dbg (S n) (w, k, ch) f d 0 = Ok (p, f', d) /\ fr f f' /\
                pred_type_of p = td_out_pred (red_types (n := S n) (w, k, ch)) /\ nscores f p).
    { intros p f' E Ns.
      assert (R : fr f f').
      { refine (kind_predict_restore dbg k (predict dbg n ch) f d 0 p f' d _ (proj1 G) _ E).
        - destruct I as (_ & I & _). apply noelem_ok in I. apply I.
        - intros. eapply predict_restore; eauto. destruct I as (_ & I & _). apply noelem_ok in I. apply I. }
      assert (E' : predict dbg (S n) (w, k, ch) f d 0 = Ok (p, f', d)).
      { cbn [predict]. apply (wrap_total _ dbg fs); auto. }
      exists p, f'. split; auto. split; auto. split; auto.
      pose proof (predict_nt dbg (S n) (w, k, ch) f d 0 (proj1 I) Tf) as Q. rewrite E' in Q. apply Q. }
    destruct I as (T & El & C). pose proof T as (T1 & T2 & T3). pose proof (td_good _ _ T3) as (G1 & G2 & G3).
    unfold uses_elem in El. cbn [some_kind fst snd] in El. apply orb_false_elim in El. destruct El as (El1 & El2).
    unfold uses_weighted in U. cbn [some_kind fst snd] in U. apply orb_false_elim in U. destruct U as (U1 & U2).
    assert (Ic : inv dbg fs n ch) by (split; [exact T1|split; [exact El2|exact C]]).
    change (red_types (n := S n) (w, k, ch)) with (w_types w) in *. rewrite T2 in *.
    destruct k; try discriminate; cbn [kind_td td_in_feats td_in_label td_out_label td_out_feats td_in_pred td_out_pred td_cb_adf td_explore] in *;
      inversion G1 as [G1']; inversion G2 as [G2']; inversion G3 as [G3'].
    + destruct (IH ch f) as (p & f' & E & R & Tp & _); auto; try congruence. rewrite <- G3' in Tp.
      destruct p as [u v|?|?|?]; try discriminate. eapply RS; [simpl; rewrite E; reflexivity|exact I].
    + destruct f as [|s x]; try discriminate.
      destruct (cb_predict_total dbg fs n ch s x 0 d) as (sc & acts & E & L); auto; [|apply G|].
      { intros f Gf Pf Tf'. destruct (IH ch f) as (p & f' & E & R & Tp & _); auto; try congruence.
        exists p, f'. split; auto. split; auto. congruence. }
      eapply RS; [cbn [kind_predict as_cb bind fst snd]; rewrite E; reflexivity|].
      simpl. rewrite L. lia.
    + destruct (IH ch f) as (p & f' & E & R & Tp & Ns); auto; try congruence. rewrite <- G3' in Tp.
      destruct p as [?|?|l|?]; try discriminate. simpl in Ns.
      destruct (greedy_total eps l) as (pr & Ep).
      { intros ->. simpl in Ns. specialize (NE eq_refl). lia. }
      eapply RS; [simpl; rewrite E; cbn [bind as_scores]; rewrite Ep; reflexivity|exact I].
    + destruct (IH ch f) as (p & f' & E & R & Tp & Ns); auto; try congruence.
      eapply RS; [simpl; exact E|exact Ns].
Qed.

Context (SE : forall v : O, f_isnan O v = false -> f_eqb O v v = true).

Lemma plain_sgood : forall f : features O, plain f -> sgood f.
Proof.
  intros f P. split; [now apply plain_good|]. destruct f as [a|]; auto. destruct P as (B & T). simpl in *.
  apply no_composite_noraw; auto. now apply built_wf.
Qed.

Lemma fits_of : forall dbg n (f : features O), all_below n f -> (dbg = true -> all_values (fun v => f_isnan O v = false) f) ->
  fits dbg n f.
Proof.
  intros dbg n f B V a Ha i v Hin. split; [eapply B; eauto|]. intros D. apply SE. exact (V D a i v Ha Hin).
Qed.

Lemma reach_inv : forall H dbg gc (c : rcfg O) R r n, ws_new H dbg gc c = Ok R -> reach dbg (projT2 R) r ->
  bits_to_max_feature_index dbg (gc_bits gc) = Ok n -> uses_elem (projT2 R) = false ->
  inv dbg n (projT1 R) r /\ red_types r = red_types (projT2 R) /\ uses_mtr r = uses_mtr (projT2 R).
Proof.
  intros H dbg gc c R r n E Q Hb U. pose proof (reach_shape _ _ _ _ Q) as S.
  destruct (shape_typed _ _ _ S (create_typed _ _ _ _ _ _ E)) as (T & T').
  split; [split; [exact T|split]|split; [exact T'|]].
  - now rewrite (shape_elem _ _ _ S).
  - eapply reach_bottom; eauto.
  - now rewrite (shape_mtr _ _ _ S).
Qed.

Lemma learn_returns : forall H dbg gc (c : rcfg O) R r (f : features O) lb n,
  ws_new H dbg gc c = Ok R -> reach dbg (projT2 R) r -> uses_elem (projT2 R) = false ->
  bits_to_max_feature_index dbg (gc_bits gc) = Ok n ->
  plain f -> all_below n f ->
  feat_type_of f = td_in_feats (red_types (projT2 R)) -> label_type_of lb = td_in_label (red_types (projT2 R)) ->
  (uses_mtr (projT2 R) = true -> mtr_example f lb) ->
  (dbg = true -> prob_pos lb /\ has_room (num_actions f) (counters _ r) /\ all_values (fun v => f_isnan O v = false) f) ->
  exists r' f', ws_learn dbg r f lb = Ok (r', f') /\ fts_same f f'.
Proof.
  intros H dbg gc c R r f lb n E Q U Hb Pl B Tf Tl M D.
  destruct (reach_inv _ _ _ _ _ _ _ E Q Hb U) as (I & T & Mt).
  destruct (learn_total dbg n (projT1 R) 0 eq_refl r f lb I) as (r' & f' & L & Rf).
  - now apply plain_sgood.
  - apply fits_of; auto. intros D'. now apply D.
  - rewrite T; assumption.
  - rewrite T; assumption.
  - split; [now rewrite Mt|]. split; intros D'; now apply D.
  - exists r', f'. split; [unfold ws_learn; rewrite L; reflexivity|]. apply ftsim_same.
    apply sgood_ftsim; auto. now apply plain_sgood.
Qed.

Lemma predict_returns : forall H dbg gc (c : rcfg O) R r (f : features O) n,
  ws_new H dbg gc c = Ok R -> reach dbg (projT2 R) r -> uses_elem (projT2 R) = false -> uses_weighted (projT2 R) = false ->
  bits_to_max_feature_index dbg (gc_bits gc) = Ok n ->
  plain f -> all_below n f ->
  feat_type_of f = td_in_feats (red_types (projT2 R)) ->
  (td_out_pred (red_types (projT2 R)) = PTProbs -> num_actions f <> 0) ->
  (dbg = true -> all_values (fun v => f_isnan O v = false) f) ->
  exists pr f', ws_predict dbg r f = Ok (pr, f') /\ pred_type_of pr = td_out_pred (red_types (projT2 R)) /\ fts_same f f'.
Proof.
  intros H dbg gc c R r f n E Q U Uw Hb Pl B Tf NE D.
  destruct (reach_inv _ _ _ _ _ _ _ E Q Hb U) as (I & T & Mt).
  destruct (predict_total dbg n (projT1 R) 0 eq_refl r f I) as (pr & f' & L & Rf & Tp & _).
  - rewrite (shape_weighted _ _ _ (reach_shape _ _ _ _ Q)). exact Uw.
  - now apply plain_sgood.
  - apply fits_of; auto.
  - rewrite T; assumption.
  - now rewrite T.
  - exists pr, f'. split; [unfold ws_predict; rewrite L; reflexivity|]. split; [rewrite <- T; exact Tp|]. apply ftsim_same.
    apply sgood_ftsim; auto. now apply plain_sgood.
Qed.
End Total.

(** ** binary32 *)
Lemma b_self : forall v : spec_float, b_isnan v = false -> SFeqb v v = true.
Proof.
  intros [s|s| |s m e]; try reflexivity; try discriminate; unfold SFeqb; simpl; intros _;
    destruct s; try reflexivity; rewrite Z.compare_refl, ?Pos.compare_cont_refl, ?Pos.compare_refl; simpl; try reflexivity.
Qed.



(** ** examples *)
Definition mtr_cfg : rcfg BF0 := CCbAdf Mtr (CCoin coin_default).
Definition mtr_noshared : features BF0 := FtsCb None [ex_store 0%nat; ex_store 2%nat].
Lemma plain_noshared : plain mtr_noshared.
Proof.
  split; [split; [|exact I]|split; [|exact I]]; intros a [<-|[<-|[]]]; (apply ex_built || (apply ex_no_composite; lia)).
Qed.

Lemma mtr_noshared_panics : exists R, ws_new ex_hash false ex_gc mtr_cfg = Ok R /\ plain mtr_noshared /\
  (1 < length (match mtr_noshared with FtsCb _ x => x | _ => [] end))%nat /\
  ws_learn false (projT2 R) mtr_noshared ex_lb = Pn PTodo.
Proof.
  destruct (ws_new ex_hash false ex_gc mtr_cfg) as [R|x|x] eqn:E; [|vm_compute in E; discriminate..].
  exists R. split; auto. split; [exact plain_noshared|]. split; [simpl; lia|].
  vm_compute in E. inversion E; subst. vm_compute. reflexivity.
Qed.

Definition far_lb : label BF0 := LbCb 7 f1 (f_lit BF0 1 2).
Lemma mtr_range_panics : exists R, ws_new ex_hash false ex_gc mtr_cfg = Ok R /\ plain ex_fts /\
  ws_learn false (projT2 R) ex_fts far_lb = Pn PNone.
Proof.
  destruct (ws_new ex_hash false ex_gc mtr_cfg) as [R|x|x] eqn:E; [|vm_compute in E; discriminate..].
  exists R. split; auto. split; [exact ex_plain|].
  vm_compute in E. inversion E; subst. vm_compute. reflexivity.
Qed.
Lemma ips_range_accepted : exists R, ws_new ex_hash false ex_gc ex_cfg = Ok R /\ plain ex_fts /\
  ok_of (ws_learn false (projT2 R) ex_fts far_lb) = true.
Proof.
  destruct (ws_new ex_hash false ex_gc ex_cfg) as [R|x|x] eqn:E; [|vm_compute in E; discriminate..].
  exists R. split; auto. split; [exact ex_plain|].
  vm_compute in E. inversion E; subst. vm_compute. reflexivity.
Qed.

Definition nan_hist : list (fop BF0) := [FAdd 0 NsDefault 1%N (S754_nan : BF0)].
Definition nan_store : fstore BF0 := match fops_run true nan_hist fstore0 with Ok st => st | _ => fstore0 end.
Definition nan_fts : features BF0 := FtsSimple (nan_store 0%nat).
Lemma nan_value_panics : exists R, ws_new ex_hash true ex_gc (CCoin (@coin_default BF0)) = Ok R /\
  plain nan_fts /\ all_below 16 nan_fts /\
  ws_learn true (projT2 R) nan_fts (LbSimple f1 f1) = Pn PAssert.
Proof.
  destruct (ws_new ex_hash true ex_gc (CCoin (@coin_default BF0))) as [R|x|x] eqn:E; [|vm_compute in E; discriminate..].
  exists R. split; auto. split; [|split].
  - split.
    + exists true, nan_hist, nan_store, 0%nat. split; reflexivity.
    + intros h s. vm_compute. discriminate.
  - intros a [<-|[]] i v H. vm_compute in H. destruct H as [H|[]]. inversion H; subst. reflexivity.
  - vm_compute in E. inversion E; subst. vm_compute. reflexivity.
Qed.

(** the hypotheses hold for a contextual bandit example under the default cost type *)
Definition mtr_debug : rcfg BF0 := CGreedy (f_lit BF0 1 10) (CDebug mtr_cfg).
Lemma mtr_example_ok : exists R, ws_new ex_hash true ex_gc mtr_debug = Ok R /\
  uses_elem (projT2 R) = false /\ uses_weighted (projT2 R) = false /\ uses_mtr (projT2 R) = true /\
  bits_to_max_feature_index true (gc_bits ex_gc) = Ok 16 /\ plain ex_fts /\ all_below 16 ex_fts /\
  feat_type_of ex_fts = td_in_feats (red_types (projT2 R)) /\ label_type_of ex_lb = td_in_label (red_types (projT2 R)) /\
  mtr_example ex_fts ex_lb /\ prob_pos ex_lb /\ has_room (num_actions ex_fts) (counters _ (projT2 R)) /\
  num_actions ex_fts = 2 /\ all_values (fun v : BF0 => f_isnan BF0 v = false) ex_fts.
Proof.
  destruct (ws_new ex_hash true ex_gc mtr_debug) as [R|x|x] eqn:E; [|vm_compute in E; discriminate..].
  exists R. split; auto.
  assert (V : forallb (fun a : sfeats BF0 => forallb (fun iv : N * BF0 => (fst iv <? 16) && negb (b_isnan (snd iv : BF0))) (sf_all a)) (parts ex_fts) = true)
    by (vm_compute; reflexivity).
  assert (V' : forall (a : sfeats BF0) i (v : BF0), In a (parts ex_fts) -> In (i, v) (sf_all a) -> i < 16 /\ b_isnan v = false).
  { intros a i v Ha Hi. rewrite forallb_forall in V. specialize (V a Ha). rewrite forallb_forall in V.
    specialize (V (i, v) Hi). apply andb_prop in V. destruct V as (V1 & V2). split; [now apply N.ltb_lt|now apply negb_true_iff]. }
  assert (M : forall c, In c (counters (projT1 R) (projT2 R)) -> c = 0).
  { vm_compute in E. inversion E; subst. simpl. intros c [<-|[<-|[]]]; reflexivity. }
  split; [|split; [|split]]; try (vm_compute in E; inversion E; subst; reflexivity).
  split; [reflexivity|]. split; [exact ex_plain|]. split; [intros a Ha i v Hi; eapply V'; eauto|].
  split; [vm_compute in E; inversion E; subst; reflexivity|]. split; [vm_compute in E; inversion E; subst; reflexivity|].
  split; [repeat eexists; simpl; lia|]. split; [vm_compute; reflexivity|].
  split; [intros c Hc; apply M in Hc; subst; reflexivity|]. split; [reflexivity|].
  intros a i v Ha Hi. eapply V'; eauto.
Qed.
