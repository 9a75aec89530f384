(** The model offset counter, and predict_then_learn against predict and learn. *)
From Coq Require Import List NArith ZArith Bool Lia.
From Verif Require Import Base FloatOps Model_Hash Model_Features Model_Weights Model_Types Model_Explore
  Model_Coin Model_Stack Proof_Features Proof_StackCong Proof_StackRestore.
Import ListNotations.

Lemma depth_inc0 : forall dbg d nmb, (d < 256)%N -> depth_inc dbg d nmb 0 = Ok d.
Proof.
  intros dbg d nmb H. unfold depth_inc, u8_mul, u8_add. rewrite N.mul_0_r. simpl.
  rewrite N.add_0_r. apply N.ltb_lt in H. now rewrite H.
Qed.
Lemma depth_dec0 : forall dbg d nmb, depth_dec dbg d nmb 0 = Ok d.
Proof.
  intros dbg d nmb. unfold depth_dec, u8_mul, u8_sub. rewrite N.mul_0_r. simpl bind.
  replace (0 <=? d)%N with true by (symmetry; apply N.leb_le; lia). now rewrite N.sub_0_r.
Qed.

Section P.
Context {O : FOps}.
Implicit Types (f g : features O).

(** ** results do not depend on the offset counter *)
Definition dsim {A} (d e : N) (u v : A * N) : Prop := fst u = fst v /\ snd u = d /\ snd v = e.

Ltac dsplit :=
  let E1 := fresh "E" in let E2 := fresh "E" in let E3 := fresh "E" in
  intros (? & ?) (? & ?) (E1 & E2 & E3); simpl in E1, E2, E3; subst.
Ltac ddone := split; [reflexivity|split; reflexivity].

Lemma wrap_dsim : forall X dbg nmb f d e (B1 B2 : features O -> N -> out (pres O X)),
  (d < 256)%N -> (e < 256)%N -> orel (dsim d e) (B1 f d) (B2 f e) ->
  orel (dsim d e) (wrap dbg nmb 0 f d B1) (wrap dbg nmb 0 f e B2).
Proof.
  intros X dbg nmb f d e B1 B2 Hd He H. unfold wrap. rewrite !depth_inc0 by auto. cbn [bind].
  eapply orel_bind; [exact H|]. dsplit. destruct p0 as (x & f'). rewrite !depth_dec0. cbn [bind].
  destruct (_ && _); constructor. ddone.
Qed.

Lemma elem_frame_dsim : forall X dbg one two keep nb (c1 c2 : features O -> out (pres O X)) f d e,
  (forall f, orel (dsim d e) (c1 f) (c2 f)) ->
  orel (dsim d e) (elem_frame dbg one two keep nb c1 f) (elem_frame dbg one two keep nb c2 f).
Proof.
  intros X dbg one two keep nb c1 c2 [s|] d e H; unfold elem_frame; simpl as_simple; cbn [bind]; [|constructor].
  destruct (elem_multiply dbg nb s one two); cbn [bind]; try constructor.
  destruct keep.
  - eapply orel_bind; [apply H|]. dsplit. destruct p0. constructor. ddone.
  - destruct (sf_remove_ns one _) as (o1 & s2). destruct (opt_or PNone o1); cbn [bind]; try constructor.
    destruct (sf_remove_ns two s2) as (o2 & s3). destruct (opt_or PNone o2); cbn [bind]; try constructor.
    eapply orel_bind; [apply H|]. dsplit. destruct p0. constructor. ddone.
Qed.

Lemma cb_predict_loop_dsim : forall dbg c1 c2 (s : option (sfeats O)) x i d e,
  (forall f, orel (dsim d e) (c1 f d 0%N) (c2 f e 0%N)) ->
  orel (dsim d e) (cb_predict_loop dbg c1 s x i d) (cb_predict_loop dbg c2 s x i e).
Proof.
  intros dbg c1 c2 s x i d e HC. revert i. induction x as [|a x IH]; intros i; simpl.
  - constructor. ddone.
  - destruct (append_opt a s) as [a1| |]; cbn [bind]; try constructor.
    eapply orel_bind; [apply HC|]. dsplit. destruct p0 as (p & f').
    destruct (as_scalar p) as [sc| |]; cbn [bind]; try constructor.
    destruct (remove_opt dbg (back_simple a1 f') s) as [a2| |]; cbn [bind]; try constructor.
    eapply orel_bind; [apply IH|]. dsplit. destruct p1. constructor. ddone.
Qed.

Lemma cb_ips_loop_dsim : forall X dbg l1 l2 act cost prob (s : option (sfeats O)) x i (ch : X) d e,
  (forall ch f lb, orel (dsim d e) (l1 ch f lb d 0%N) (l2 ch f lb e 0%N)) ->
  orel (dsim d e) (cb_ips_loop dbg l1 act cost prob s x i ch d) (cb_ips_loop dbg l2 act cost prob s x i ch e).
Proof.
  intros X dbg l1 l2 act cost prob s x i ch d e HC. revert i ch. induction x as [|a x IH]; intros i ch; simpl.
  - constructor. ddone.
  - destruct (append_opt a s) as [a1| |]; cbn [bind]; try constructor.
    destruct (ips_label dbg act cost prob i) as [lb| |]; cbn [bind]; try constructor.
    eapply orel_bind; [apply HC|]. dsplit. destruct p0 as (p & f').
    destruct (remove_opt dbg (back_simple a1 f') s) as [a2| |]; cbn [bind]; try constructor.
    eapply orel_bind; [apply IH|]. dsplit. destruct p1. constructor. ddone.
Qed.

Lemma kind_predict_dsim : forall dbg k c1 c2 f d e mo1 mo2,
  (forall f, orel (dsim d e) (c1 f d 0%N) (c2 f e 0%N)) ->
  orel (dsim d e) (kind_predict dbg k c1 f d mo1) (kind_predict dbg k c2 f e mo2).
Proof.
  intros dbg k c1 c2 f d e mo1 mo2 HC. destruct k; cbn [kind_predict]; auto;
    try (eapply orel_bind; [apply HC|]; dsplit; destruct p0 as (p & f')).
  - destruct (as_scalar p); cbn [bind]; constructor. ddone.
  - destruct f as [a|s x]; simpl as_cb; cbn [bind fst snd]; [constructor|].
    eapply orel_bind; [apply cb_predict_loop_dsim; apply HC|]. dsplit. destruct p0. constructor. ddone.
  - destruct (as_scores p); cbn [bind]; try constructor. destruct (greedy_probs eps a); cbn [bind]; constructor. ddone.
  - destruct (as_scores p); cbn [bind]; try constructor. destruct (softmax_probs dbg ueps lambda a); cbn [bind]; constructor. ddone.
  - destruct (as_scores p); cbn [bind]; try constructor. destruct (squarecb_probs _ _ _ a); cbn [bind]; constructor. ddone.
  - apply elem_frame_dsim. auto.
Qed.

Lemma kind_learn_dsim : forall X dbg k l1 l2 (ch : X) f lb d e mo1 mo2,
  (forall ch f lb, orel (dsim d e) (l1 ch f lb d 0%N) (l2 ch f lb e 0%N)) ->
  orel (dsim d e) (kind_learn dbg k l1 ch f lb d mo1) (kind_learn dbg k l2 ch f lb e mo2).
Proof.
  intros X dbg k l1 l2 ch f lb d e mo1 mo2 HC. destruct k; cbn [kind_learn];
    try (eapply orel_bind; [apply HC|]; dsplit; destruct p0 as (p & f'); constructor; ddone).
  - destruct (as_binary_label lb); cbn [bind]; try constructor.
    eapply orel_bind; [apply HC|]; dsplit; destruct p0 as (p & f'); constructor; ddone.
  - destruct f as [a|s x]; simpl as_cb; cbn [bind fst snd]; [constructor|].
    destruct (as_cb_label lb) as [((act & cost) & prob)| |]; cbn [bind]; try constructor.
    destruct ty.
    + eapply orel_bind; [apply cb_ips_loop_dsim; apply HC|]. dsplit. destruct p0. constructor. ddone.
    + destruct (add64 dbg action_sum _); cbn [bind]; try constructor.
      destruct (add64 dbg event_sum 1); cbn [bind]; try constructor.
      destruct s as [s|]; [|constructor].
      destruct (opt_or PNone _) as [a1| |]; cbn [bind]; try constructor.
      destruct (sf_append s a1) as [s1| |]; cbn [bind]; try constructor.
      eapply orel_bind; [apply HC|]; dsplit; destruct p0 as (p & f').
      destruct (sf_remove dbg (back_simple s1 f') a1); cbn [bind]; constructor; ddone.
  - destruct (as_cb_label lb) as [((act & cost) & prob)| |]; cbn [bind]; try constructor.
    eapply orel_bind; [apply HC|]; dsplit; destruct p0 as (p & f').
    destruct (add64 dbg counter 1); cbn [bind]; constructor; ddone.
  - eapply orel_bind; [apply elem_frame_dsim; intros; apply HC|]; dsplit; destruct p0 as (p & f'); constructor; ddone.
Qed.

Lemma predict_dsim : forall dbg n (r : red O n) f d e, (d < 256)%N -> (e < 256)%N ->
  orel (dsim d e) (predict dbg n r f d 0) (predict dbg n r f e 0).
Proof.
  induction n as [|n IH]; intros r f d e Hd He.
  - destruct r as (w & c). cbn [predict fst snd]. apply wrap_dsim; auto. unfold coin_predict_body.
    destruct (as_simple f); cbn [bind]; try constructor. destruct (coin_predict dbg c a); cbn [bind]; constructor. ddone.
  - destruct r as ((w & k) & ch). cbn [predict]. apply wrap_dsim; auto.
    apply kind_predict_dsim; auto.
Qed.

Lemma learn_dsim : forall dbg n (r : red O n) f lb d e, (d < 256)%N -> (e < 256)%N ->
  orel (dsim d e) (learn dbg n r f lb d 0) (learn dbg n r f lb e 0).
Proof.
  induction n as [|n IH]; intros r f lb d e Hd He.
  - destruct r as (w & c). cbn [learn]. apply wrap_dsim; auto. unfold coin_learn_body.
    destruct (as_simple f); cbn [bind]; try constructor. destruct (as_simple_label lb); cbn [bind]; try constructor.
    destruct (coin_learn _ _ _ _ _); cbn [bind]; constructor. ddone.
  - destruct r as ((w & k) & ch). cbn [learn]. apply wrap_dsim; auto.
    eapply orel_bind; [apply kind_learn_dsim; auto|]. dsplit. destruct p0 as ((? & ?) & ?). constructor. ddone.
Qed.

Lemma default_ptl_dsim : forall X (p1 p2 : features O -> N -> out (pres O (prediction O)))
    (l1 l2 : features O -> N -> out (pres O X)) f d e,
  (forall f, orel (dsim d e) (p1 f d) (p2 f e)) ->
  (forall f, orel (dsim d e) (l1 f d) (l2 f e)) ->
  orel (dsim d e) (default_ptl p1 l1 f d) (default_ptl p2 l2 f e).
Proof.
  intros X p1 p2 l1 l2 f d e HP HL. unfold default_ptl.
  eapply orel_bind; [apply HP|]; dsplit. destruct p0 as (p & f').
  eapply orel_bind; [apply HL|]; dsplit. destruct p3 as (x & f'').
  rewrite !N.eqb_refl. constructor. ddone.
Qed.

Lemma ptl_dsim : forall dbg n (r : red O n) f lb d e, (d < 256)%N -> (e < 256)%N ->
  orel (dsim d e) (predict_then_learn dbg n r f lb d 0) (predict_then_learn dbg n r f lb e 0).
Proof.
  induction n as [|n IH]; intros r f lb d e Hd He.
  - destruct r as (w & c). cbn [predict_then_learn]. apply wrap_dsim; auto.
    eapply orel_bind; [apply default_ptl_dsim; intros g|].
    + unfold coin_predict_body.
      destruct (as_simple g); cbn [bind]; try constructor. destruct (coin_predict dbg c a); cbn [bind]; constructor. ddone.
    + unfold coin_learn_body.
      destruct (as_simple g); cbn [bind]; try constructor. destruct (as_simple_label lb); cbn [bind]; try constructor.
      destruct (coin_learn _ _ _ _ _); cbn [bind]; constructor. ddone.
    + dsplit. destruct p0 as ((? & ?) & ?). constructor. ddone.
  - destruct r as ((w & k) & ch). cbn [predict_then_learn]. apply wrap_dsim; auto.
    assert (Q : orel (dsim d e)
       (kind_ptl dbg k (predict dbg n) (learn dbg n) (predict_then_learn dbg n) ch f lb d 0)
       (kind_ptl dbg k (predict dbg n) (learn dbg n) (predict_then_learn dbg n) ch f lb e 0)).
    { destruct k; cbn [kind_ptl];
        try (apply default_ptl_dsim; intros; [apply kind_predict_dsim|apply kind_learn_dsim]; intros;
             [now apply predict_dsim|now apply learn_dsim]).
      - destruct (as_binary_label lb); cbn [bind]; try constructor.
        eapply orel_bind; [apply IH; auto|]; dsplit. destruct p0 as ((p & ch') & f').
        destruct (as_scalar p); cbn [bind]; constructor. ddone.
      - eapply orel_bind; [apply elem_frame_dsim; intros; apply IH; auto|]; dsplit. destruct p0 as ((p & ch') & f').
        constructor. ddone.
      - eapply orel_bind; [apply IH; auto|]; dsplit. destruct p0 as ((p & ch') & f').
        constructor. ddone. }
    eapply orel_bind; [exact Q|]. dsplit. destruct p0 as ((? & (? & ?)) & ?). constructor. ddone.
Qed.

Lemma predict_d : forall dbg n (r : red O n) f d p f' d', (d < 256)%N ->
  predict dbg n r f d 0 = Ok (p, f', d') -> d' = d.
Proof.
  intros dbg n r f d p f' d' H E. pose proof (predict_dsim dbg n r f d d H H) as Q. rewrite E in Q.
  inversion Q; subst. apply H2.
Qed.
Lemma learn_d : forall dbg n (r : red O n) f lb d p f' d', (d < 256)%N ->
  learn dbg n r f lb d 0 = Ok (p, f', d') -> d' = d.
Proof.
  intros dbg n r f lb d p f' d' H E. pose proof (learn_dsim dbg n r f lb d d H H) as Q. rewrite E in Q.
  inversion Q; subst. apply H2.
Qed.
Lemma ptl_d : forall dbg n (r : red O n) f lb d p f' d', (d < 256)%N ->
  predict_then_learn dbg n r f lb d 0 = Ok (p, f', d') -> d' = d.
Proof.
  intros dbg n r f lb d p f' d' H E. pose proof (ptl_dsim dbg n r f lb d d H H) as Q. rewrite E in Q.
  inversion Q; subst. apply H2.
Qed.

(** ** predict_then_learn *)
Lemma wrap0_ok : forall X dbg nmb f d (body : features O -> N -> out (pres O X)) x f' d',
  (d < 256)%N ->
  (wrap dbg nmb 0 f d body = Ok (x, f', d') <->
   body f d = Ok (x, f', d') /\ dbg && negb (fts_absdiffeq f32_eps f' f) = false).
Proof.
  intros X dbg nmb f d body x f' d' Hd. unfold wrap. rewrite depth_inc0 by auto. cbn [bind].
  destruct (body f d) as [((y & g) & e)| |]; cbn [bind].
  - rewrite depth_dec0. cbn [bind]. destruct (dbg && negb (fts_absdiffeq f32_eps g f)) eqn:C; split.
    + discriminate.
    + intros (E & F). inversion E; subst. congruence.
    + intros E. inversion E; subst. auto.
    + intros (E & _). now inversion E.
  - split; [discriminate|intros (E & _); discriminate].
  - split; [discriminate|intros (E & _); discriminate].
Qed.

Lemma wrap_ext : forall X dbg nmb mo f d (B1 B2 : features O -> N -> out (pres O X)),
  (forall f d, B1 f d = B2 f d) -> wrap dbg nmb mo f d B1 = wrap dbg nmb mo f d B2.
Proof.
  intros X dbg nmb mo f d B1 B2 H. unfold wrap. destruct (depth_inc dbg d nmb mo); cbn [bind]; auto. now rewrite H.
Qed.

(** the element-wise frame is a preparation and a clean-up *)
Lemma elem_frame_form : forall dbg one two keep nb (s : sfeats O), fwf s ->
  (exists s' (fin : sfeats O -> sfeats O), fwf s' /\
     (forall u v, fsim u v -> fsim (fin u) (fin v)) /\
     forall X (call : features O -> out (pres O X)),
       elem_frame dbg one two keep nb call (FtsSimple s) =
       let* r := call (FtsSimple s') in
       let '(x, f', d') := r in Ok (x, FtsSimple (fin (back_simple s' f')), d')) \/
  (forall X (call : features O -> out (pres O X)) r,
     elem_frame dbg one two keep nb call (FtsSimple s) <> Ok r).
Proof.
  intros dbg one two keep nb s W. unfold elem_frame. simpl as_simple. cbn [bind].
  destruct (elem_multiply dbg nb s one two) as [dest| |] eqn:E; cbn [bind]; [|right; discriminate|right; discriminate].
  destruct (elem_multiply_wf _ _ _ _ _ _ E) as (Wd & _ & _).
  assert (W1 : fwf (sf_set_ns (elem_ns one two) dest s)) by now apply fwf_set.
  destruct keep.
  - left. exists (sf_set_ns (elem_ns one two) dest s), (fm_del (elem_ns one two)).
    split; auto. split; [intros; now apply fsim_del|]. reflexivity.
  - unfold sf_remove_ns. cbn [fst snd].
    destruct (fm_get one (sf_set_ns (elem_ns one two) dest s)) as [n1|] eqn:E1; cbn [opt_or bind]; [|right; discriminate].
    assert (W2 : fwf (fm_del one (sf_set_ns (elem_ns one two) dest s))) by now apply fwf_del.
    destruct (fm_get two (fm_del one (sf_set_ns (elem_ns one two) dest s))) as [n2|] eqn:E2; cbn [opt_or bind]; [|right; discriminate].
    left. exists (fm_del two (fm_del one (sf_set_ns (elem_ns one two) dest s))).
    exists (fun u => sf_set_ns two n2 (sf_set_ns one n1 (fm_del (elem_ns one two) u))).
    split; [now apply fwf_del|]. split; [|reflexivity].
    intros u v S. unfold sf_set_ns.
    apply fsim_set; [apply fsim_set|]; [now apply fsim_del|eapply W1; eauto|eapply W2; eauto].
Qed.

(** a stack never scores actions on simple features *)
Lemma predict_simple_pred : forall dbg n (r : red O n) s d mo p f' d',
  predict dbg n r (FtsSimple s) d mo = Ok (p, f', d') ->
  match p with PrScalar _ _ | PrBinary _ => True | _ => False end.
Proof.
  induction n as [|n IH]; intros r s d mo p f' d' H.
  - destruct r as (w & c). cbn [predict fst snd] in H. apply wrap_ok in H. destruct H as (d1 & d2 & H).
    unfold coin_predict_body in H. binv H. binv H. inversion H; subst.
    unfold coin_predict in B0. binv B0. binv B0. binv B0. inversion B0. exact I.
  - destruct r as ((w & k) & ch). cbn [predict] in H. apply wrap_ok in H. destruct H as (d1 & d2 & H).
    destruct k; cbn [kind_predict] in H.
    + binv H. destruct v as ((q & g) & e). binv H. inversion H; subst. exact I.
    + discriminate.
    + binv H. destruct v as ((q & g) & e). apply IH in B. destruct q; try tauto; discriminate.
    + binv H. destruct v as ((q & g) & e). apply IH in B. destruct q; try tauto; discriminate.
    + binv H. destruct v as ((q & g) & e). apply IH in B. destruct q; try tauto; discriminate.
    + unfold elem_frame in H. simpl as_simple in H. cbn [bind] in H. binv H. destruct keep.
      * binv H. destruct v0 as ((q & g) & e). apply IH in B0. now inversion H; subst.
      * destruct (sf_remove_ns one _) as (o1 & s2). binv H. destruct (sf_remove_ns two s2) as (o2 & s3).
        binv H. binv H. destruct v2 as ((q & g) & e). apply IH in B2. now inversion H; subst.
    + now apply IH in H.
Qed.

Definition ptl_spec dbg n (r : red O n) f lb d : Prop :=
  (forall p r' f' d', predict_then_learn dbg n r f lb d 0 = Ok ((p, r'), f', d') ->
     exists f1 f2, predict dbg n r f d 0 = Ok (p, f1, d) /\ learn dbg n r f lb d 0 = Ok (r', f2, d) /\
       ftsim f' f1 /\ ftsim f' f2) /\
  (forall p f1 d1 r' f2 d2, predict dbg n r f d 0 = Ok (p, f1, d1) -> learn dbg n r f lb d 0 = Ok (r', f2, d2) ->
     exists f', predict_then_learn dbg n r f lb d 0 = Ok ((p, r'), f', d) /\ ftsim f' f1 /\ ftsim f' f2).

(** the default predict_then_learn on contextual bandit features *)
Lemma default_ptl_spec : forall X (pr : features O -> N -> out (pres O (prediction O)))
    (le : features O -> N -> out (pres O X)) f d,
  ftwf f ->
  (forall p f1 d1, pr f d = Ok (p, f1, d1) -> d1 = d /\ ftsim f f1) ->
  (forall x f2 d2, le f d = Ok (x, f2, d2) -> d2 = d /\ ftsim f f2) ->
  (forall g, ftsim f g -> orel psim (le f d) (le g d)) ->
  (forall p x f' d', default_ptl pr le f d = Ok ((p, x), f', d') ->
     exists f1 f2, pr f d = Ok (p, f1, d) /\ le f d = Ok (x, f2, d) /\ ftsim f' f1 /\ ftsim f' f2) /\
  (forall p f1 d1 x f2 d2, pr f d = Ok (p, f1, d1) -> le f d = Ok (x, f2, d2) ->
     exists f', default_ptl pr le f d = Ok ((p, x), f', d) /\ ftsim f' f1 /\ ftsim f' f2).
Proof.
  intros X pr le f d W HP HL HS. split.
  - intros p x f' d' H. unfold default_ptl in H. binv H. destruct v as ((p0 & f1) & d1). binv H.
    destruct v as ((x0 & f2) & d2). destruct (d2 =? d)%N; inversion H; subst. clear H.
    destruct (HP _ _ _ B) as (-> & S1). pose proof (HS _ S1) as Q. rewrite B0 in Q.
    inversion Q as [u v (E1 & E2 & E3) F1 F2| |]; subst. destruct u as ((x1 & g) & e). simpl in E1, E2, E3; subst.
    symmetry in F1. destruct (HL _ _ _ F1) as (-> & S2).
    exists f1, g. split; auto. split; auto. split; [|now apply ftsim_sym].
    eapply ftsim_trans; [apply ftsim_sym; exact E2|]. eapply ftsim_trans; [apply ftsim_sym; exact S2|exact S1].
  - intros p f1 d1 x f2 d2 E1 E2. destruct (HP _ _ _ E1) as (-> & S1). destruct (HL _ _ _ E2) as (-> & S2).
    pose proof (HS _ S1) as Q. rewrite E2 in Q.
    inversion Q as [u v (F1 & F2 & F3) G1 G2| |]; subst. destruct v as ((x1 & g) & e). simpl in F1, F2, F3; subst.
    exists g. unfold default_ptl. rewrite E1. cbn [bind]. rewrite <- G2. cbn [bind]. rewrite N.eqb_refl.
    split; auto. split; [|now apply ftsim_sym].
    eapply ftsim_trans; [apply ftsim_sym; exact F2|]. eapply ftsim_trans; [apply ftsim_sym; exact S2|exact S1].
Qed.

Lemma fr_cb : forall s x f', fr (FtsCb s x : features O) f' -> ftsim (FtsCb s x) f'.
Proof. intros s x [a|t y]; simpl; tauto. Qed.

Lemma wrap_ptl_spec : forall n' X Y dbg nmb f d
    (P : features O -> N -> out (pres O (prediction O)))
    (L : features O -> N -> out (pres O X))
    (T : features O -> N -> out (pres O (prediction O * X))) (W : X -> Y),
  (n' < 256)%N -> d = n' -> ftwf f ->
  (forall p f1 d1, P f d = Ok (p, f1, d1) -> d1 = d) ->
  (forall p f1 d1, L f d = Ok (p, f1, d1) -> d1 = d) ->
  (forall p x f' d', T f d = Ok ((p, x), f', d') ->
     exists f1 f2, P f d = Ok (p, f1, d) /\ L f d = Ok (x, f2, d) /\ ftsim f' f1 /\ ftsim f' f2) ->
  (forall p f1 d1 x f2 d2, P f d = Ok (p, f1, d1) -> L f d = Ok (x, f2, d2) ->
     exists f', T f d = Ok ((p, x), f', d) /\ ftsim f' f1 /\ ftsim f' f2) ->
  (forall p y f' d',
     wrap dbg nmb 0 f d (fun f d => let* z := T f d in let '((p, x), f', d') := z in Ok ((p, W x), f', d'))
       = Ok ((p, y), f', d') ->
     exists f1 f2, wrap dbg nmb 0 f d P = Ok (p, f1, d) /\
       wrap dbg nmb 0 f d (fun f d => let* z := L f d in let '(x, f', d') := z in Ok (W x, f', d')) = Ok (y, f2, d) /\
       ftsim f' f1 /\ ftsim f' f2) /\
  (forall p f1 d1 y f2 d2, wrap dbg nmb 0 f d P = Ok (p, f1, d1) ->
     wrap dbg nmb 0 f d (fun f d => let* z := L f d in let '(x, f', d') := z in Ok (W x, f', d')) = Ok (y, f2, d2) ->
     exists f', wrap dbg nmb 0 f d (fun f d => let* z := T f d in let '((p, x), f', d') := z in Ok ((p, W x), f', d'))
       = Ok ((p, y), f', d) /\ ftsim f' f1 /\ ftsim f' f2).
Proof.
  intros n' X Y dbg nmb f d P L T W Hn -> Wf DP DL A B. split.
  - intros p y f' d' H. apply wrap0_ok in H; auto. destruct H as (H & C).
    binv H. destruct v as (((p0 & x) & g) & e). inversion H; subst. clear H.
    destruct (A _ _ _ _ B0) as (f1 & f2 & E1 & E2 & S1 & S2). exists f1, f2. split; [|split; [|auto]].
    + apply wrap0_ok; auto. split; auto.
      rewrite (ftsim_absdiffeq f32_eps f1 f' f f); auto using ftsim_sym, ftsim_refl.
    + apply wrap0_ok; auto. split; [now rewrite E2|].
      rewrite (ftsim_absdiffeq f32_eps f2 f' f f); auto using ftsim_sym, ftsim_refl.
  - intros p f1 d1 y f2 d2 H1 H2. apply wrap0_ok in H1; auto. apply wrap0_ok in H2; auto.
    destruct H1 as (H1 & C1), H2 as (H2 & C2). binv H2. destruct v as ((x & g) & e). inversion H2; subst. clear H2.
    destruct (B _ _ _ _ _ _ H1 B0) as (f' & E & S1 & S2). exists f'. split; auto.
    apply wrap0_ok; auto. split; [now rewrite E|].
    rewrite (ftsim_absdiffeq f32_eps f' f1 f f); auto using ftsim_refl.
Qed.

Definition is_default (k : kind O) : Prop :=
  match k with KCbAdf _ _ _ | KGreedy _ | KSoftmax _ _ _ | KSquareCb _ _ _ _ => True | _ => False end.
Lemma default_or : forall k, is_default k \/
  (k = KBinary \/ k = KDebug \/ exists one two keep nb, k = KElem one two keep nb).
Proof. destruct k; simpl; auto. right; right; right; eauto. Qed.

Lemma ptl_ok : forall dbg n (r : red O n) f lb d, elems_ok n r -> good f -> (d < 256)%N ->
  ptl_spec dbg n r f lb d.
Proof.
  induction n as [|n IH]; intros r f lb d K G Hd; unfold ptl_spec.
  - destruct r as (w & c). cbn [predict learn predict_then_learn fst snd].
    set (P := coin_predict_body dbg c). set (L := fun f d => coin_learn_body dbg c f lb d).
    assert (DP : forall p f1 d1, P f d = Ok (p, f1, d1) -> d1 = d /\ ftsim f f1).
    { intros p f1 d1 H. unfold P, coin_predict_body in H. binv H. binv H. inversion H; subst. split; auto.
      apply ftsim_refl. now apply good_wf. }
    assert (DL : forall p f1 d1, L f d = Ok (p, f1, d1) -> d1 = d /\ ftsim f f1).
    { intros p f1 d1 H. unfold L, coin_learn_body in H. binv H. binv H. binv H. inversion H; subst. split; auto.
      apply ftsim_refl. now apply good_wf. }
    destruct (default_ptl_spec _ P L f d (good_wf f G) DP DL) as (A & B).
    { intros g S. now apply coin_learn_body_sim. }
    exact (wrap_ptl_spec d _ _ dbg (w_below w) f d P L (default_ptl P L) (fun c' => ((w, c') : red O 0)) Hd eq_refl
             (good_wf f G) (fun p f1 d1 H => proj1 (DP p f1 d1 H)) (fun p f1 d1 H => proj1 (DL p f1 d1 H)) A B).
  - destruct r as ((w & k) & ch). cbn [predict learn predict_then_learn].
    destruct K as (K1 & K2). cbn [fst snd] in K1, K2.
    set (P := fun f d => kind_predict dbg k (predict dbg n ch) f d 0%N).
    set (L := fun f d => kind_learn dbg k (learn dbg n) ch f lb d 0%N).
    set (T := fun f d => kind_ptl dbg k (predict dbg n) (learn dbg n) (predict_then_learn dbg n) ch f lb d 0%N).
    assert (DP : forall p f1 d1, P f d = Ok (p, f1, d1) -> d1 = d).
    { intros p f1 d1 E. pose proof (kind_predict_dsim dbg k (predict dbg n ch) (predict dbg n ch) f d d 0 0
        (fun f => predict_dsim dbg n ch f d d Hd Hd)) as Q. unfold P in E. rewrite E in Q. inversion Q; subst. apply H1. }
    assert (DL : forall p f1 d1, L f d = Ok (p, f1, d1) -> d1 = d).
    { intros p f1 d1 E. pose proof (kind_learn_dsim _ dbg k (learn dbg n) (learn dbg n) ch f lb d d 0 0
        (fun ch f lb => learn_dsim dbg n ch f lb d d Hd Hd)) as Q. unfold L in E. rewrite E in Q. inversion Q; subst. apply H1. }
    assert (Main : (forall p x f' d', T f d = Ok ((p, x), f', d') ->
        exists f1 f2, P f d = Ok (p, f1, d) /\ L f d = Ok (x, f2, d) /\ ftsim f' f1 /\ ftsim f' f2) /\
      (forall p f1 d1 x f2 d2, P f d = Ok (p, f1, d1) -> L f d = Ok (x, f2, d2) ->
        exists f', T f d = Ok ((p, x), f', d) /\ ftsim f' f1 /\ ftsim f' f2)).
    { destruct (default_or k) as [D|Cases].
      - assert (DFT : T f d = default_ptl P L f d) by (unfold T, P, L; destruct k; simpl in D; tauto || reflexivity).
        destruct f as [s|s x0]; rewrite DFT.
        + (* never Ok on simple features *)
          assert (PN : forall p f1 d1, P (FtsSimple s) d <> Ok (p, f1, d1)).
          { intros p f1 d1 H. unfold P in H. destruct k; simpl in D; try tauto; cbn [kind_predict] in H; try discriminate;
              (binv H; destruct v as ((q & g) & e); apply predict_simple_pred in B; destruct q; try tauto; discriminate). }
          split.
          * intros p x f' d' H. unfold default_ptl in H. binv H. destruct v as ((q & g) & e). exfalso. eapply PN; eauto.
          * intros p f1 d1 x f2 d2 H1. exfalso. eapply PN; eauto.
        + apply default_ptl_spec; [now apply good_wf| | |].
          * intros p f1 d1 H. split; [eapply DP; eauto|]. apply fr_cb.
            eapply kind_predict_restore; [exact K1|exact G| |exact H]. intros; eapply predict_restore; eauto.
          * intros (k' & ch') f2 d2 H. split; [eapply DL; eauto|]. apply fr_cb.
            eapply (kind_learn_restore _ (elems_ok n)); [exact K1|exact G|exact K2| |exact H].
            intros; eapply learn_restore; eauto.
          * intros g S. unfold L. apply kind_learn_sim; auto. intros; now apply learn_sim.
      - destruct Cases as [->|[->|(one & two & keep & nb & ->)]].
        + (* binary *)
          unfold P, L, T; cbn [kind_predict kind_learn kind_ptl].
          destruct (as_binary_label lb) as [b| |]; cbn [bind]; [|split; intros; discriminate|split; intros; discriminate].
          destruct (IH ch f (binary_label b) d K2 G Hd) as (A & B). split.
          * intros p x f' d' H. binv H. destruct v as (((p0 & c0) & g) & e). binv H. inversion H; subst. clear H.
            destruct (A _ _ _ _ B0) as (f1 & f2 & E1 & E2 & S1 & S2). rewrite E1, E2. cbn [bind]. rewrite B1. cbn [bind].
            exists f1, f2. auto.
          * intros p f1 d1 x f2 d2 H1 H2. binv H1. destruct v as ((q & g) & e). binv H1. inversion H1; subst.
            binv H2. destruct v0 as ((c0 & g') & e'). inversion H2; subst. clear H1 H2.
            destruct (B _ _ _ _ _ _ B0 B2) as (f' & E & S1 & S2). exists f'. rewrite E. cbn [bind]. rewrite B1. cbn [bind]. auto.
        + (* debug *)
          unfold P, L, T; cbn [kind_predict kind_learn kind_ptl].
          destruct (IH ch f lb d K2 G Hd) as (A & B). split.
          * intros p x f' d' H. binv H. destruct v as (((p0 & c0) & g) & e). inversion H; subst. clear H.
            destruct (A _ _ _ _ B0) as (f1 & f2 & E1 & E2 & S1 & S2). rewrite E1, E2. cbn [bind].
            exists f1, f2. auto.
          * intros p f1 d1 x f2 d2 H1 H2. binv H2. destruct v as ((c0 & g') & e'). inversion H2; subst. clear H2.
            destruct (B _ _ _ _ _ _ H1 B0) as (f' & E & S1 & S2). exists f'. rewrite E. cbn [bind]. auto.
        + (* element-wise *)
          unfold P, L, T; cbn [kind_predict kind_learn kind_ptl].
          destruct f as [s|s x0]; [|split; intros; discriminate].
          simpl in G. destruct (elem_frame_form dbg one two keep nb s G) as [(s' & fin & Ws' & Hfin & Form)|No].
          2:{ split.
              - intros p x f' d' H. binv H. exfalso. eapply No; exact B.
              - intros p f1 d1 x f2 d2 H1 _. exfalso. eapply No; exact H1. }
          rewrite !Form. destruct (IH ch (FtsSimple s') lb d K2 Ws' Hd) as (A & B). split.
          * intros p x f' d' H. binv H. destruct v as (((p0 & c0) & g) & e). inversion H; subst. clear H.
            binv B0. destruct v as (((p0 & c1) & g1) & e1). inversion B0; subst. clear B0.
            destruct (A _ _ _ _ B1) as (f1 & f2 & E1 & E2 & S1 & S2). rewrite E1, E2. cbn [bind].
            eexists. eexists. split; [reflexivity|]. split; [reflexivity|]. simpl.
            split; apply Hfin; apply back_sim; auto using fsim_refl.
          * intros p f1 d1 x f2 d2 H1 H2. binv H1. destruct v as ((q & g) & e). inversion H1; subst. clear H1.
            binv H2. destruct v as ((c0 & g') & e'). inversion H2; subst. clear H2.
            binv B1. destruct v as ((c1 & g1) & e1). inversion B1; subst. clear B1.
            destruct (B _ _ _ _ _ _ B0 B2) as (f' & E & S1 & S2). rewrite E. cbn [bind].
            eexists. split; [reflexivity|]. simpl.
            split; apply Hfin; apply back_sim; auto using fsim_refl. }
    destruct Main as (A & B).
    assert (QT : forall f d, (let* x := kind_ptl dbg k (predict dbg n) (learn dbg n) (predict_then_learn dbg n) ch f lb d 0 in
        let '((p, (k', ch')), f', d') := x in Ok ((p, ((w, k', ch') : red O (S n))), f', d')) =
        (let* z := T f d in let '((p, x), f', d') := z in Ok ((p, ((w, fst x, snd x) : red O (S n))), f', d'))).
    { intros f0 d0. unfold T. destruct (kind_ptl _ _ _ _ _ _ _ _ _ _) as [(((p & (k' & ch')) & f') & d')| |]; reflexivity. }
    assert (QL : forall f d, (let* x := kind_learn dbg k (learn dbg n) ch f lb d 0 in
        let '((k', ch'), f', d') := x in Ok (((w, k', ch') : red O (S n)), f', d')) =
        (let* z := L f d in let '(x, f', d') := z in Ok (((w, fst x, snd x) : red O (S n)), f', d'))).
    { intros f0 d0. unfold L. destruct (kind_learn _ _ _ _ _ _ _ _) as [(((k' & ch') & f') & d')| |]; reflexivity. }
    pose proof (wrap_ptl_spec d _ _ dbg (w_below w) f d P L T (fun kc => ((w, fst kc, snd kc) : red O (S n))) Hd eq_refl
             (good_wf f G) DP DL A B) as Q.
    pose proof (wrap_ext _ dbg (w_below w) 0 f d _ _ QT) as WT.
    pose proof (wrap_ext _ dbg (w_below w) 0 f d _ _ QL) as WL.
    destruct Q as (Q1 & Q2). split.
    + intros p r' f' d' H. destruct (Q1 p r' f' d') as (f1 & f2 & E1 & E2 & SS).
      { etransitivity; [symmetry; exact WT|exact H]. }
      exists f1, f2. split; [exact E1|]. split; [etransitivity; [exact WL|exact E2]|exact SS].
    + intros p f1 d1 r' f2 d2 H1 H2. destruct (Q2 p f1 d1 r' f2 d2 H1) as (f' & E & SS).
      { etransitivity; [symmetry; exact WL|exact H2]. }
      exists f'. split; [etransitivity; [exact WT|exact E]|exact SS].
Qed.
End P.
