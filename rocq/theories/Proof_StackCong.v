(** Reduction stacks do not distinguish feature objects that look the same. *)
From Coq Require Import List NArith ZArith Bool Lia.
From Verif Require Import Base FloatOps Model_Hash Model_Features Model_Weights Model_Types Model_Explore
  Model_Coin Model_Stack Proof_Features.
Import ListNotations.

Lemma F2_length : forall A B (R : A -> B -> Prop) x y, Forall2 R x y -> length x = length y.
Proof. intros A B R x y H; induction H; simpl; auto. Qed.

Ltac pdone := split; [simpl; (reflexivity || auto; fail || congruence)|split; [simpl; auto|reflexivity]].

Section Cong.
Context {O : FOps}.
Implicit Types (a b s t : sfeats O) (f g : features O).

Definition oeq (s t : option (sfeats O)) : Prop :=
  match s, t with Some a, Some b => fsim a b | None, None => True | _, _ => False end.
Definition ftsim f g : Prop :=
  match f, g with
  | FtsSimple a, FtsSimple b => fsim a b
  | FtsCb s x, FtsCb t y => oeq s t /\ Forall2 fsim x y
  | _, _ => False
  end.
Definition ftwf f : Prop :=
  match f with
  | FtsSimple a => fwf a
  | FtsCb s x => (match s with Some a => fwf a | None => True end) /\ Forall fwf x
  end.

Lemma ftsim_refl : forall f, ftwf f -> ftsim f f.
Proof.
  intros [a|[s|] x]; simpl; intros W; try (now apply fsim_refl).
  - split; [now apply fsim_refl|]. destruct W as (_ & W). induction W; constructor; auto using fsim_refl.
  - split; auto. destruct W as (_ & W). induction W; constructor; auto using fsim_refl.
Qed.
Lemma ftsim_sym : forall f g, ftsim f g -> ftsim g f.
Proof.
  intros [a|[s|] x] [b|[t|] y]; simpl; intros H; try tauto; try (now apply fsim_sym).
  - destruct H as (H1 & H2). split; [now apply fsim_sym|]. induction H2; constructor; auto using fsim_sym.
  - destruct H as (H1 & H2). split; auto. induction H2; constructor; auto using fsim_sym.
Qed.
Lemma F2_trans : forall x y z, Forall2 (@fsim O) x y -> Forall2 fsim y z -> Forall2 fsim x z.
Proof.
  intros x y z H; revert z. induction H; intros z K; inversion K; subst; constructor; eauto using fsim_trans.
Qed.
Lemma ftsim_trans : forall f g h, ftsim f g -> ftsim g h -> ftsim f h.
Proof.
  intros [a|[s|] x] [b|[t|] y] [c|[u|] z]; simpl; intros H K; try tauto; try (eapply fsim_trans; eauto; fail).
  - destruct H, K. split; [eapply fsim_trans; eauto|eapply F2_trans; eauto].
  - destruct H, K. split; auto. eapply F2_trans; eauto.
Qed.
Lemma ftsim_wf_l : forall f g, ftsim f g -> ftwf f.
Proof.
  intros [a|[s|] x] [b|[t|] y]; simpl; intros H; try tauto; try apply H.
  - split; [apply H|]. destruct H as (_ & H). induction H; constructor; auto. apply H.
  - split; [apply H|]. destruct H as (_ & H). induction H; constructor; auto. apply H.
Qed.
Lemma ftsim_wf_r : forall f g, ftsim f g -> ftwf g.
Proof. intros f g H. eapply ftsim_wf_l, ftsim_sym, H. Qed.

Lemma ftsim_absdiffeq : forall eps f g f' g', ftsim f g -> ftsim f' g' ->
  fts_absdiffeq eps f f' = fts_absdiffeq eps g g'.
Proof.
  intros eps [a|s x] [b|t y] [a'|s' x'] [b'|t' y']; simpl; intros H K; try tauto.
  - now apply fsim_absdiffeq.
  - destruct H as (H1 & H2), K as (K1 & K2).
    assert (L : length x = length y) by (eapply F2_length; eauto).
    assert (L' : length x' = length y') by (eapply F2_length; eauto).
    rewrite L, L'. f_equal; [f_equal|].
    + destruct s, t, s', t'; simpl in *; try tauto. now apply fsim_absdiffeq.
    + clear - H2 K2. revert x' y' K2. induction H2; intros x' y' K2; simpl; auto.
      inversion K2; subst; simpl; auto. f_equal; auto. now apply fsim_absdiffeq.
Qed.

(** related results of calls *)
Definition psim {X} (u v : pres O X) : Prop :=
  fst (fst u) = fst (fst v) /\ ftsim (snd (fst u)) (snd (fst v)) /\ snd u = snd v.

Lemma wrap_sim : forall X dbg nmb mo f g d (B1 B2 : features O -> N -> out (pres O X)),
  ftsim f g -> (forall d, orel psim (B1 f d) (B2 g d)) ->
  orel psim (wrap dbg nmb mo f d B1) (wrap dbg nmb mo g d B2).
Proof.
  intros X dbg nmb mo f g d B1 B2 H HB. unfold wrap.
  destruct (depth_inc dbg d nmb mo) as [d1|e|p]; cbn [bind]; try constructor.
  eapply orel_bind; [apply HB|]. intros ((x & f') & d2) ((y & g') & e2) (E1 & E2 & E3).
  simpl in *. subst y e2. destruct (depth_dec dbg d2 nmb mo) as [d3|e|p]; cbn [bind]; try constructor.
  rewrite (ftsim_absdiffeq f32_eps f' g' f g) by auto.
  destruct (dbg && negb (fts_absdiffeq f32_eps g' g)); constructor. pdone.
Qed.

Lemma fe_quadratic_sim : forall mk a b p, fsim a b -> fe_quadratic mk a p = fe_quadratic mk b p.
Proof.
  intros mk a b (n1 & n2) H. unfold fe_quadratic. rewrite !(fsim_get a b) by auto. reflexivity.
Qed.
Lemma fe_cubic_sim : forall mk a b p, fsim a b -> fe_cubic mk a p = fe_cubic mk b p.
Proof.
  intros mk a b ((n1 & n2) & n3) H. unfold fe_cubic. rewrite !(fsim_get a b) by auto. reflexivity.
Qed.
Lemma fe_list_sim : forall dbg a b ps ts nb c, fsim a b ->
  fe_list dbg a ps ts nb c = fe_list dbg b ps ts nb c.
Proof.
  intros dbg a b ps ts nb c H. unfold fe_list.
  destruct (mask_from_bits dbg nb) as [mk| |]; cbn [bind]; auto.
  rewrite (fsim_all a b) by auto.
  rewrite (flat_map_ext (fe_quadratic mk a) (fe_quadratic mk b)) by (intros; now apply fe_quadratic_sim).
  rewrite (flat_map_ext (fe_cubic mk a) (fe_cubic mk b)) by (intros; now apply fe_cubic_sim).
  reflexivity.
Qed.

Lemma coin_predict_sim : forall dbg c a b, fsim a b -> coin_predict dbg c a = coin_predict dbg c b.
Proof. intros dbg c a b H. unfold coin_predict, coin_feats. now rewrite (fe_list_sim dbg a b) by auto. Qed.
Lemma coin_update_sim : forall dbg c a b p l w, fsim a b -> coin_update dbg c a p l w = coin_update dbg c b p l w.
Proof. intros dbg c a b p l w H. unfold coin_update, coin_feats. now rewrite (fe_list_sim dbg a b) by auto. Qed.
Lemma coin_learn_sim : forall dbg c a b v w, fsim a b -> coin_learn dbg c a v w = coin_learn dbg c b v w.
Proof.
  intros dbg c a b v w H. unfold coin_learn, coin_betting_predict, coin_feats.
  rewrite (fe_list_sim dbg a b) by auto. match goal with |- bind ?x _ = _ => destruct x end; cbn [bind]; auto.
  now apply coin_update_sim.
Qed.
Lemma coin_sensitivity_sim : forall dbg c a b, fsim a b -> coin_sensitivity dbg c a = coin_sensitivity dbg c b.
Proof. intros dbg c a b H. unfold coin_sensitivity, coin_feats. now rewrite (fe_list_sim dbg a b) by auto. Qed.

Lemma coin_predict_body_sim : forall dbg c f g d, ftsim f g ->
  orel psim (coin_predict_body dbg c f d) (coin_predict_body dbg c g d).
Proof.
  intros dbg c [a|s x] [b|t y] d H; simpl in H; try tauto; unfold coin_predict_body; simpl as_simple;
    cbn [bind]; [|constructor].
  rewrite (coin_predict_sim dbg c a b) by auto.
  destruct (coin_predict dbg c b); cbn [bind]; constructor. pdone.
Qed.
Lemma coin_learn_body_sim : forall dbg c f g lb d, ftsim f g ->
  orel psim (coin_learn_body dbg c f lb d) (coin_learn_body dbg c g lb d).
Proof.
  intros dbg c [a|s x] [b|t y] lb d H; simpl in H; try tauto; unfold coin_learn_body; simpl as_simple;
    cbn [bind]; [|constructor].
  destruct (as_simple_label lb) as [l| |]; cbn [bind]; try constructor.
  rewrite (coin_learn_sim dbg c a b) by auto.
  destruct (coin_learn dbg c b (fst l) (snd l)); cbn [bind]; constructor. pdone.
Qed.

Lemma elem_merge_wf : forall dbg (b1 b2 cb : N) l1 l2 k (dest r : sfn O), sfn_wf k dest ->
  elem_merge dbg b1 b2 cb l1 l2 dest = Ok r -> sfn_wf k r.
Proof.
  induction l1 as [|(i1 & v1) l1 IH]; intros l2 k dest r W H.
  - destruct l2; simpl in H; inversion H; now subst.
  - revert dest W H. induction l2 as [|(i2 & v2) l2 IH2]; intros dest W H.
    + simpl in H. inversion H; now subst.
    + simpl in H.
      apply bind_ok in H. destruct H as (x1 & _ & H).
      apply bind_ok in H. destruct H as (x2 & _ & H).
      apply bind_ok in H. destruct H as (di & _ & H).
      destruct (x1 =? x2)%N.
      * eapply IH; [|exact H]. now apply sfn_add_wf.
      * destruct (x1 <? x2)%N.
        -- eapply IH; eauto.
        -- eapply IH2; eauto.
Qed.

Lemma elem_multiply_wf : forall dbg nb s one two dest,
  elem_multiply dbg nb s one two = Ok dest ->
  sfn_wf (elem_ns one two) dest /\ sf_get one s <> None /\ sf_get two s <> None.
Proof.
  intros dbg nb s one two dest H. unfold elem_multiply in H.
  apply bind_ok in H. destruct H as (mk & _ & H).
  destruct (sf_get one s) as [n1|]; simpl in H; [|discriminate].
  destruct (sf_get two s) as [n2|]; simpl in H; [|discriminate].
  split; [|split; discriminate]. eapply elem_merge_wf; [|exact H]. split; auto.
Qed.

Lemma elem_multiply_sim : forall dbg nb a b one two, fsim a b ->
  elem_multiply dbg nb a one two = elem_multiply dbg nb b one two.
Proof. intros dbg nb a b one two H. unfold elem_multiply. now rewrite !(fsim_get a b) by auto. Qed.

Lemma fsim_get_active : forall a b k, fsim a b -> sf_get k a <> None ->
  exists u, fm_get k a = Some u /\ fm_get k b = Some u /\ sfn_wf k u /\ sfn_active u = true.
Proof.
  intros a b k H N. destruct (sf_get k a) as [u|] eqn:E; [|congruence].
  exists u. pose proof E as E'. rewrite (fsim_get a b) in E' by auto.
  apply fm_get_active in E. apply fm_get_active in E'. destruct H as (Wa & _).
  split; [apply E|]. split; [apply E'|]. split; [apply Wa, E|apply E].
Qed.

Lemma back_sim : forall s t f g, fsim s t -> ftsim f g -> fsim (back_simple s f) (back_simple t g).
Proof. intros s t [a|x y] [b|u v] H K; simpl in *; tauto. Qed.

Lemma elem_frame_sim : forall X dbg one two keep nb (c1 c2 : features O -> out (pres O X)) f g,
  ftsim f g -> (forall f g, ftsim f g -> orel psim (c1 f) (c2 g)) ->
  orel psim (elem_frame dbg one two keep nb c1 f) (elem_frame dbg one two keep nb c2 g).
Proof.
  intros X dbg one two keep nb c1 c2 [a|s x] [b|t y] H HC; simpl in H; try tauto; unfold elem_frame;
    simpl as_simple; cbn [bind]; [|constructor].
  rewrite (elem_multiply_sim dbg nb a b) by auto.
  destruct (elem_multiply dbg nb b one two) as [dest| |] eqn:E; cbn [bind]; try constructor.
  destruct (elem_multiply_wf _ _ _ _ _ _ E) as (W & G1 & G2).
  set (cns := elem_ns one two) in *.
  assert (S1 : fsim (sf_set_ns cns dest a) (sf_set_ns cns dest b)) by now apply fsim_set.
  destruct keep.
  - eapply orel_bind; [apply HC; exact S1|].
    intros ((p & f') & d) ((q & g') & e) (E1 & E2 & E3). simpl in *; subst. constructor.
    split; simpl; auto. split; auto. apply fsim_del. now apply back_sim.
  - unfold sf_remove_ns at 1 4. cbn [fst snd].
    assert (E1 : fm_get one (sf_set_ns cns dest a) = fm_get one (sf_set_ns cns dest b)).
    { unfold sf_set_ns. rewrite !fm_get_set. destruct (ns_eqb one cns); auto.
      rewrite <- (fsim_get a b) in G1 by auto.
      destruct (fsim_get_active a b one H G1) as (u & -> & -> & _). reflexivity. }
    rewrite E1. destruct (fm_get one (sf_set_ns cns dest b)) as [n1|] eqn:N1; cbn [opt_or bind]; try constructor.
    assert (S2 : fsim (fm_del one (sf_set_ns cns dest a)) (fm_del one (sf_set_ns cns dest b))) by now apply fsim_del.
    unfold sf_remove_ns at 1 3. cbn [fst snd].
    assert (E2 : fm_get two (fm_del one (sf_set_ns cns dest a)) = fm_get two (fm_del one (sf_set_ns cns dest b))).
    { rewrite !fm_get_del by apply S1. destruct (ns_eqb two one); auto.
      unfold sf_set_ns. rewrite !fm_get_set. destruct (ns_eqb two cns); auto.
      rewrite <- (fsim_get a b) in G2 by auto.
      destruct (fsim_get_active a b two H G2) as (u & -> & -> & _). reflexivity. }
    rewrite E2. destruct (fm_get two (fm_del one (sf_set_ns cns dest b))) as [n2|] eqn:N2; cbn [opt_or bind]; try constructor.
    assert (S3 : fsim (fm_del two (fm_del one (sf_set_ns cns dest a))) (fm_del two (fm_del one (sf_set_ns cns dest b)))) by now apply fsim_del.
    eapply orel_bind; [apply HC; exact S3|].
    intros ((p & f') & d) ((q & g') & e) (E3 & E4 & E5). simpl in *; subst. constructor.
    split; simpl; auto. split; auto. unfold sf_set_ns.
    apply fsim_set; [apply fsim_set|]; [|eapply S1; eauto|eapply S2; eauto].
    apply fsim_del. now apply back_sim.
Qed.

Lemma append_opt_sim : forall a b (s t : option (sfeats O)), fsim a b -> oeq s t -> orel fsim (append_opt a s) (append_opt b t).
Proof.
  intros a b [s|] [t|] H K; simpl in *; try tauto; [now apply fsim_append2|now constructor].
Qed.
Lemma remove_opt_sim : forall dbg a b (s t : option (sfeats O)), fsim a b -> oeq s t -> orel fsim (remove_opt dbg a s) (remove_opt dbg b t).
Proof.
  intros dbg a b [s|] [t|] H K; simpl in *; try tauto; [now apply fsim_remove2|now constructor].
Qed.

Definition lsim {X} (u v : X * list (sfeats O) * N) : Prop :=
  fst (fst u) = fst (fst v) /\ Forall2 fsim (snd (fst u)) (snd (fst v)) /\ snd u = snd v.

Lemma cb_predict_loop_sim : forall dbg c1 c2 (s t : option (sfeats O)) x y i d,
  (forall f g d mo, ftsim f g -> orel psim (c1 f d mo) (c2 g d mo)) ->
  oeq s t -> Forall2 fsim x y ->
  orel lsim (cb_predict_loop dbg c1 s x i d) (cb_predict_loop dbg c2 t y i d).
Proof.
  intros dbg c1 c2 s t x y i d HC Hs H. revert i d. induction H as [|a b x y Hab H IH]; intros i d; simpl.
  - constructor. pdone.
  - eapply orel_bind; [apply append_opt_sim; eauto|]. intros a1 b1 H1.
    eapply orel_bind; [apply HC; exact H1|].
    intros ((p & f') & d1) ((q & g') & e1) (E1 & E2 & E3). simpl in *; subst.
    destruct (as_scalar q) as [sc| |]; cbn [bind]; try constructor.
    eapply orel_bind; [apply remove_opt_sim; [|exact Hs]; apply back_sim; eauto|]. intros a2 b2 H2.
    eapply orel_bind; [apply IH|].
    intros ((p1 & l1) & d2) ((q1 & l2) & e2) (E1 & E4 & E3). simpl in *; subst. constructor.
    pdone.
Qed.

Lemma cb_ips_loop_sim : forall X dbg l1 l2 act cost prob (s t : option (sfeats O)) x y i (ch : X) d,
  (forall ch f g lb d mo, ftsim f g -> orel psim (l1 ch f lb d mo) (l2 ch g lb d mo)) ->
  oeq s t -> Forall2 fsim x y ->
  orel lsim (cb_ips_loop dbg l1 act cost prob s x i ch d) (cb_ips_loop dbg l2 act cost prob t y i ch d).
Proof.
  intros X dbg l1 l2 act cost prob s t x y i ch d HC Hs H. revert i ch d.
  induction H as [|a b x y Hab H IH]; intros i ch d; simpl.
  - constructor. pdone.
  - eapply orel_bind; [apply append_opt_sim; eauto|]. intros a1 b1 H1.
    destruct (ips_label dbg act cost prob i) as [lb| |]; cbn [bind]; try constructor.
    eapply orel_bind; [apply HC; exact H1|].
    intros ((p & f') & d1) ((q & g') & e1) (E1 & E2 & E3). simpl in *; subst.
    eapply orel_bind; [apply remove_opt_sim; [|exact Hs]; apply back_sim; eauto|]. intros a2 b2 H2.
    eapply orel_bind; [apply IH|].
    intros ((p1 & m1) & d2) ((q1 & m2) & e2) (E1 & E4 & E3). simpl in *; subst. constructor.
    pdone.
Qed.

Ltac psplit :=
  let p := fresh "p" in let f' := fresh "f'" in let d' := fresh "d'" in
  let q := fresh "q" in let g' := fresh "g'" in let e' := fresh "e'" in
  let E1 := fresh "E" in let E2 := fresh "E" in let E3 := fresh "E" in
  intros ((p & f') & d') ((q & g') & e') (E1 & E2 & E3); simpl in E1, E2, E3; subst.

Lemma kind_predict_sim : forall dbg k c1 c2 f g d mo,
  (forall f g d mo, ftsim f g -> orel psim (c1 f d mo) (c2 g d mo)) -> ftsim f g ->
  orel psim (kind_predict dbg k c1 f d mo) (kind_predict dbg k c2 g d mo).
Proof.
  intros dbg k c1 c2 f g d mo HC H. destruct k; cbn [kind_predict];
    try (eapply orel_bind; [apply HC; exact H|psplit]).
  - destruct (as_scalar q) as [sc| |]; cbn [bind]; constructor. pdone.
  - destruct f as [a|s x], g as [b|t y]; simpl in H; try tauto; simpl as_cb; cbn [bind fst snd]; [constructor|].
    destruct H as (H1 & H2). eapply orel_bind; [apply cb_predict_loop_sim; eauto|]. psplit.
    constructor. pdone.
  - destruct (as_scores q) as [sc| |]; cbn [bind]; try constructor.
    destruct (greedy_probs eps sc) as [pr| |]; cbn [bind]; constructor. pdone.
  - destruct (as_scores q) as [sc| |]; cbn [bind]; try constructor.
    destruct (softmax_probs dbg ueps lambda sc) as [pr| |]; cbn [bind]; constructor. pdone.
  - destruct (as_scores q) as [sc| |]; cbn [bind]; try constructor.
    destruct (squarecb_probs dbg ueps (squarecb_gamma gscale gexp counter) sc) as [pr| |]; cbn [bind]; constructor.
    pdone.
  - apply elem_frame_sim; auto.
  - now apply HC.
Qed.

Lemma kind_learn_sim : forall X dbg k l1 l2 (ch : X) f g lb d mo,
  (forall ch f g lb d mo, ftsim f g -> orel psim (l1 ch f lb d mo) (l2 ch g lb d mo)) -> ftsim f g ->
  orel psim (kind_learn dbg k l1 ch f lb d mo) (kind_learn dbg k l2 ch g lb d mo).
Proof.
  intros X dbg k l1 l2 ch f g lb d mo HC H. destruct k; cbn [kind_learn];
    try (eapply orel_bind; [apply HC; exact H|psplit; constructor; pdone]).
  - destruct (as_binary_label lb) as [b| |]; cbn [bind]; try constructor.
    eapply orel_bind; [apply HC; exact H|psplit; constructor; pdone].
  - destruct f as [a|s x], g as [b|t y]; simpl in H; try tauto; simpl as_cb; cbn [bind fst snd]; [constructor|].
    destruct (as_cb_label lb) as [((act & cost) & prob)| |]; cbn [bind]; try constructor.
    destruct H as (H1 & H2). destruct ty.
    + eapply orel_bind; [apply cb_ips_loop_sim; eauto|]. psplit.
      constructor. pdone.
    + rewrite (F2_length _ _ _ _ _ H2).
      destruct (add64 dbg action_sum (N.of_nat (length y))) as [as'| |]; cbn [bind]; try constructor.
      destruct (add64 dbg event_sum 1) as [es'| |]; cbn [bind]; try constructor.
      destruct s as [s|], t as [t|]; simpl in H1; try tauto; [|constructor].
      assert (Hn : match nth_error x (N.to_nat act), nth_error y (N.to_nat act) with
                   | Some a, Some b => fsim a b | None, None => True | _, _ => False end).
      { clear - H2. generalize (N.to_nat act). induction H2; intros [|n]; simpl; auto. apply IHForall2. }
      destruct (nth_error x (N.to_nat act)) as [a|], (nth_error y (N.to_nat act)) as [b|]; try tauto;
        cbn [opt_or bind]; [|constructor].
      eapply orel_bind; [apply fsim_append2; eauto|]. intros s1 t1 S1.
      eapply orel_bind; [apply HC; exact S1|psplit].
      eapply orel_bind; [apply fsim_remove2; [|exact Hn]; apply back_sim; eauto|]. intros s2 t2 S2.
      constructor. pdone.
  - destruct (as_cb_label lb) as [((act & cost) & prob)| |]; cbn [bind]; try constructor.
    eapply orel_bind; [apply HC; exact H|psplit].
    destruct (add64 dbg counter 1); cbn [bind]; constructor. pdone.
  - eapply orel_bind; [apply elem_frame_sim; [exact H|intros; apply HC; auto]|psplit].
    constructor; pdone.
Qed.

Lemma predict_sim : forall dbg n (r : red O n) f g d mo, ftsim f g ->
  orel psim (predict dbg n r f d mo) (predict dbg n r g d mo).
Proof.
  induction n as [|n IH]; intros r f g d mo H.
  - destruct r as (w & c). cbn [predict fst snd]. apply wrap_sim; auto. intros; now apply coin_predict_body_sim.
  - destruct r as ((w & k) & ch). cbn [predict]. apply wrap_sim; auto.
    intros; apply kind_predict_sim; auto.
Qed.

Lemma learn_sim : forall dbg n (r : red O n) f g lb d mo, ftsim f g ->
  orel psim (learn dbg n r f lb d mo) (learn dbg n r g lb d mo).
Proof.
  induction n as [|n IH]; intros r f g lb d mo H.
  - destruct r as (w & c). cbn [learn]. apply wrap_sim; auto. intros d0.
    eapply orel_bind; [now apply coin_learn_body_sim|psplit]. constructor; pdone.
  - destruct r as ((w & k) & ch). cbn [learn]. apply wrap_sim; auto. intros d0.
    eapply orel_bind; [apply kind_learn_sim; eauto|psplit].
    destruct q. constructor; pdone.
Qed.

Lemma default_ptl_sim : forall X (p1 p2 : features O -> N -> out (pres O (prediction O)))
    (l1 l2 : features O -> N -> out (pres O X)) f g d,
  (forall f g d, ftsim f g -> orel psim (p1 f d) (p2 g d)) ->
  (forall f g d, ftsim f g -> orel psim (l1 f d) (l2 g d)) -> ftsim f g ->
  orel psim (default_ptl p1 l1 f d) (default_ptl p2 l2 g d).
Proof.
  intros X p1 p2 l1 l2 f g d HP HL H. unfold default_ptl.
  eapply orel_bind; [apply HP; exact H|psplit].
  eapply orel_bind; [apply HL; eassumption|psplit].
  destruct (_ =? d)%N; constructor. pdone.
Qed.

Lemma kind_ptl_sim : forall X dbg k p1 p2 l1 l2 (t1 t2 : X -> features O -> label O -> N -> N -> out (pres O (prediction O * X))) (ch : X) f g lb d mo,
  (forall ch f g d mo, ftsim f g -> orel psim (p1 ch f d mo) (p2 ch g d mo)) ->
  (forall ch f g lb d mo, ftsim f g -> orel psim (l1 ch f lb d mo) (l2 ch g lb d mo)) ->
  (forall ch f g lb d mo, ftsim f g -> orel psim (t1 ch f lb d mo) (t2 ch g lb d mo)) -> ftsim f g ->
  orel psim (kind_ptl dbg k p1 l1 t1 ch f lb d mo) (kind_ptl dbg k p2 l2 t2 ch g lb d mo).
Proof.
  intros X dbg k p1 p2 l1 l2 t1 t2 ch f g lb d mo HP HL HT H.
  destruct k; cbn [kind_ptl];
    try (apply default_ptl_sim; auto; intros; [apply kind_predict_sim|apply kind_learn_sim]; auto; fail).
  - destruct (as_binary_label lb) as [b| |]; cbn [bind]; try constructor.
    eapply orel_bind; [apply HT; exact H|psplit]. destruct q as (p & ch').
    destruct (as_scalar p); cbn [bind]; constructor. pdone.
  - eapply orel_bind; [apply elem_frame_sim; [exact H|intros; apply HT; auto]|psplit].
    destruct q. constructor; pdone.
  - eapply orel_bind; [apply HT; exact H|psplit]. destruct q. constructor; pdone.
Qed.

Lemma ptl_sim : forall dbg n (r : red O n) f g lb d mo, ftsim f g ->
  orel psim (predict_then_learn dbg n r f lb d mo) (predict_then_learn dbg n r g lb d mo).
Proof.
  induction n as [|n IH]; intros r f g lb d mo H.
  - destruct r as (w & c). cbn [predict_then_learn]. apply wrap_sim; auto. intros d0.
    eapply orel_bind; [apply default_ptl_sim; [| |exact H]; intros; [now apply coin_predict_body_sim|now apply coin_learn_body_sim]|psplit].
    destruct q. constructor; pdone.
  - destruct r as ((w & k) & ch). cbn [predict_then_learn]. apply wrap_sim; auto. intros d0.
    eapply orel_bind; [apply kind_ptl_sim; [| | |exact H]; intros; [now apply predict_sim|now apply learn_sim|now apply IH]|psplit].
    destruct q as (p & (k' & ch')). constructor; pdone.
Qed.

Lemma sensitivity_sim : forall dbg n (r : red O n) f g, ftsim f g ->
  sensitivity dbg n r f = sensitivity dbg n r g.
Proof.
  induction n as [|n IH]; intros r f g H; cbn [sensitivity]; [|now apply IH].
  destruct f as [a|s x], g as [b|t y]; simpl in H; try tauto; simpl as_simple; cbn [bind]; auto.
  now apply coin_sensitivity_sim.
Qed.

End Cong.
