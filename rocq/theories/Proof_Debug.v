(** Debug layers change nothing. *)
From Coq Require Import List NArith ZArith Bool Lia.
From Verif Require Import Base FloatOps FloatB32 Model_Hash Model_Features Model_Types Model_Interactions Model_Weights Model_Loss Model_Explore
  Model_Coin Model_Stack Model_Factory Spec_Stack Spec_Reductions Spec_Save Spec_Debug
  Proof_StackRestore Proof_StackShape Proof_StackProps Proof_StackRel.
Import ListNotations.
Open Scope N_scope.

Section D.
Context {O : FOps}.

(** a second wrapper around the same call *)
Lemma wrap_wrap : forall X dbg nmb nmb' f d (b : features O -> N -> out (pres O X)),
  wrap dbg nmb 0 f d (fun f d => wrap dbg nmb' 0 f d b) = wrap dbg nmb' 0 f d b.
Proof.
  intros X dbg nmb nmb' f d b. unfold wrap.
  assert (DI : forall n e, depth_inc dbg e n 0 = u8_add dbg e 0).
  { intros n e. unfold depth_inc, u8_mul. rewrite N.mul_0_r. reflexivity. }
  assert (DD : forall n e, depth_dec dbg e n 0 = Ok e).
  { intros n e. unfold depth_dec, u8_mul. rewrite N.mul_0_r. cbn [bind]. unfold u8_sub.
    change (0 <? 256) with true. cbn [bind]. replace (0 <=? e) with true by (symmetry; apply N.leb_le; lia). now rewrite N.sub_0_r. }
  rewrite !DI.
  assert (AA : forall e e1, u8_add dbg e 0 = Ok e1 -> u8_add dbg e1 0 = Ok e1).
  { intros e e1. unfold u8_add. rewrite !N.add_0_r. destruct (e <? 256) eqn:Q.
    - intros E; inversion E; subst. now rewrite Q.
    - destruct dbg; [discriminate|]. intros E; inversion E; subst.
      assert (Q' : e mod 256 < 256) by (apply N.mod_lt; discriminate). apply N.ltb_lt in Q'. now rewrite Q'. }
  destruct (u8_add dbg d 0) as [d1| |] eqn:E1; cbn [bind]; auto.
  rewrite DI, (AA _ _ E1). cbn [bind]. destruct (b f d1) as [[[x f'] d2]| |]; cbn [bind]; auto.
  rewrite DD. cbn [bind]. destruct (dbg && negb (fts_absdiffeq f32_eps f' f)) eqn:C; [reflexivity|].
  cbn [bind]. rewrite DD. cbn [bind]. now rewrite C.
Qed.

Lemma wrap_bind : forall X Y dbg nmb mo f d (b : features O -> N -> out (pres O X)) (h : X -> Y),
  wrap dbg nmb mo f d (fun f d => let* r := b f d in let '(x, f', d') := r in Ok (h x, f', d')) =
  let* r := wrap dbg nmb mo f d b in let '(x, f', d') := r in Ok (h x, f', d').
Proof.
  intros. unfold wrap. destruct (depth_inc dbg d nmb mo) as [d1| |]; cbn [bind]; auto.
  destruct (b f d1) as [[[x f'] d2]| |]; cbn [bind]; auto.
  destruct (depth_dec dbg d2 nmb mo); cbn [bind]; auto.
  now destruct (dbg && negb (fts_absdiffeq f32_eps f' f)).
Qed.

Lemma bind_ret : forall A (x : out A), (let* a := x in Ok a) = x.
Proof. now intros A [a|e|p]. Qed.

(** children are called with offset 0 *)
Lemma kp0 : forall dbg k c f d mo, kind_predict (O := O) dbg k c f d mo = kind_predict dbg k (fun f d _ => c f d 0) f d mo.
Proof.
  intros. destruct k; cbn [kind_predict]; auto.
  destruct (as_cb f) as [[s x]| |]; cbn [bind]; auto.
  assert (L : forall i d, cb_predict_loop dbg c s x i d = cb_predict_loop dbg (fun f d _ => c f d 0) s x i d).
  { induction x as [|a x IH]; intros i e; [reflexivity|]. cbn [cb_predict_loop].
    destruct (append_opt a s) as [a1| |]; cbn [bind]; auto.
    destruct (c (FtsSimple a1) e 0) as [[[p f'] d']| |]; cbn [bind]; auto.
    destruct (as_scalar p); cbn [bind]; auto.
    destruct (remove_opt dbg (back_simple a1 f') s); cbn [bind]; auto. now rewrite IH. }
  now rewrite L.
Qed.
Lemma kl0 : forall X dbg k (l : X -> features O -> label O -> N -> N -> out (pres O X)) ch f lb d mo,
  kind_learn dbg k l ch f lb d mo = kind_learn dbg k (fun ch f lb d _ => l ch f lb d 0) ch f lb d mo.
Proof.
  intros. destruct k; cbn [kind_learn]; auto.
  destruct (as_cb f) as [[s x]| |]; cbn [bind]; auto.
  destruct (as_cb_label lb) as [((act & cost) & prob)| |]; cbn [bind]; auto. destruct ty; auto.
  assert (L : forall i ch d, cb_ips_loop dbg l act cost prob s x i ch d = cb_ips_loop dbg (fun ch f lb d _ => l ch f lb d 0) act cost prob s x i ch d).
  { induction x as [|a x IH]; intros i c e; [reflexivity|]. cbn [cb_ips_loop].
    destruct (append_opt a s) as [a1| |]; cbn [bind]; auto.
    destruct (ips_label dbg act cost prob i) as [lb'| |]; cbn [bind]; auto.
    destruct (l c (FtsSimple a1) lb' e 0) as [[[p f'] d']| |]; cbn [bind]; auto.
    destruct (remove_opt dbg (back_simple a1 f') s); cbn [bind]; auto. now rewrite IH. }
  now rewrite L.
Qed.
Lemma kt0 : forall X dbg k p (l : X -> features O -> label O -> N -> N -> out (pres O X)) t ch f lb d,
  kind_ptl dbg k p l t ch f lb d 0 =
  kind_ptl dbg k (fun ch f d _ => p ch f d 0) (fun ch f lb d _ => l ch f lb d 0) (fun ch f lb d _ => t ch f lb d 0) ch f lb d 0.
Proof.
  intros. destruct k; cbn [kind_ptl]; auto; unfold default_ptl; rewrite kp0;
    (destruct (kind_predict dbg _ (fun f d _ => p ch f d 0) f d 0) as [[[q f1] d1]| |]; cbn [bind]; auto; now rewrite kl0).
Qed.

Definition SR n m (a : red O n) (b : red O m) : Prop := strip n a = existT (red O) m b.

Lemma strip_predict : forall dbg n (r : red O n) f d,
  predict dbg n r f d 0 = predict dbg _ (projT2 (strip n r)) f d 0.
Proof.
  intros dbg. induction n as [|n IH]; intros r f d; [reflexivity|]. destruct r as ((w & k) & ch).
  assert (G : predict dbg (S n) ((w, k, ch) : red O (S n)) f d 0 =
     predict dbg (S _) ((w, k, projT2 (strip n ch)) : red O (S _)) f d 0).
  { cbn [predict]. apply wrap_ext'. intros g e. rewrite kp0, (kp0 _ _ (predict dbg _ (projT2 (strip n ch)))).
    apply kind_predict_ext. intros; apply IH. }
  destruct k; try exact G. cbn [strip]. rewrite <- IH. clear G. cbn [predict kind_predict].
  assert (E : forall m (c : red O m) f d, exists nmb b, predict dbg m c f d 0 = wrap dbg nmb 0 f d b /\
     forall g e, predict dbg m c g e 0 = wrap dbg nmb 0 g e b).
  { intros [|m] c g e; cbn [predict]; destruct c as (?, ?); try destruct p; eexists _, _; split; intros; reflexivity. }
  destruct (E n ch f d) as (nmb & b & E1 & E2). rewrite E1.
  rewrite <- (wrap_wrap _ dbg (w_below w) nmb f d b). apply wrap_ext'. intros g e. apply E2.
Qed.

Lemma learn_head : forall dbg n (r : red O n) lb, exists nmb b, forall f d, learn dbg n r f lb d 0 = wrap dbg nmb 0 f d b.
Proof. intros dbg [|n] r lb; destruct r as (x, y); try destruct x; eexists _, _; intros; reflexivity. Qed.
Lemma ptl_head : forall dbg n (r : red O n) lb, exists nmb b, forall f d, predict_then_learn dbg n r f lb d 0 = wrap dbg nmb 0 f d b.
Proof. intros dbg [|n] r lb; destruct r as (x, y); try destruct x; eexists _, _; intros; reflexivity. Qed.

Lemma debug_learn : forall dbg n w (ch : red O n) f lb d,
  learn dbg (S n) ((w, KDebug, ch) : red O (S n)) f lb d 0 =
  let* r := learn dbg n ch f lb d 0 in let '(ch', f', d') := r in Ok ((w, KDebug, ch') : red O (S n), f', d').
Proof.
  intros. cbn [learn kind_learn]. destruct (learn_head dbg n ch lb) as (nmb & b & E).
  rewrite (wrap_ext' _ dbg (w_below w) 0 f d _ (fun f d => let* r := wrap dbg nmb 0 f d b in
     let '(x, f', d') := r in Ok ((w, KDebug, x) : red O (S n), f', d'))).
  - rewrite (wrap_bind _ _ dbg (w_below w) 0 f d (fun f d => wrap dbg nmb 0 f d b) (fun x => (w, KDebug, x) : red O (S n))).
    now rewrite wrap_wrap, E.
  - intros g e. rewrite E. now destruct (wrap dbg nmb 0 g e b) as [[[x f'] d']| |].
Qed.
Lemma debug_ptl : forall dbg n w (ch : red O n) f lb d,
  predict_then_learn dbg (S n) ((w, KDebug, ch) : red O (S n)) f lb d 0 =
  let* r := predict_then_learn dbg n ch f lb d 0 in let '((p, ch'), f', d') := r in Ok ((p, (w, KDebug, ch') : red O (S n)), f', d').
Proof.
  intros. cbn [predict_then_learn kind_ptl]. destruct (ptl_head dbg n ch lb) as (nmb & b & E).
  rewrite (wrap_ext' _ dbg (w_below w) 0 f d _ (fun f d => let* r := wrap dbg nmb 0 f d b in
     let '(x, f', d') := r in Ok ((fst x, (w, KDebug, snd x) : red O (S n)), f', d'))).
  - rewrite (wrap_bind _ _ dbg (w_below w) 0 f d (fun f d => wrap dbg nmb 0 f d b) (fun x => (fst x, (w, KDebug, snd x) : red O (S n)))).
    rewrite wrap_wrap, E. now destruct (wrap dbg nmb 0 f d b) as [[[[p x] f'] d']| |].
  - intros g e. rewrite E. now destruct (wrap dbg nmb 0 g e b) as [[[[p x] f'] d']| |].
Qed.

Lemma strip_cons : forall n w (k : kind O) ch, k <> KDebug ->
  strip (S n) ((w, k, ch) : red O (S n)) = existT (red O) (S (projT1 (strip n ch))) ((w, k), projT2 (strip n ch)).
Proof. intros n w k ch H. destruct k; try reflexivity. congruence. Qed.

Lemma sr_cons : forall n m w (k : kind O) ch ch', k <> KDebug -> SR n m ch ch' ->
  SR (S n) (S m) ((w, k, ch) : red O (S n)) ((w, k, ch') : red O (S m)).
Proof. intros n m w k ch ch' H E. unfold SR in *. rewrite strip_cons by exact H. now rewrite E. Qed.

Lemma kshape_debug : forall k k' : kind O, kshape k k' -> k <> KDebug -> k' <> KDebug.
Proof. intros [] [] H K; simpl in H; try congruence; contradiction. Qed.
Lemma kind_learn_debug : forall X dbg k (l : X -> features O -> label O -> N -> N -> out (pres O X)) ch f lb d mo k' ch' f' d',
  kind_learn dbg k l ch f lb d mo = Ok ((k', ch'), f', d') -> k <> KDebug -> k' <> KDebug.
Proof.
  intros X dbg k l ch f lb d mo k' ch' f' d' H. apply kshape_debug.
  eapply (kind_learn_shape X (fun _ _ => True)); eauto.
Qed.
Lemma kind_ptl_debug : forall X dbg k p (l : X -> features O -> label O -> N -> N -> out (pres O X)) t ch f lb d mo q k' ch' f' d',
  kind_ptl dbg k p l t ch f lb d mo = Ok ((q, (k', ch')), f', d') -> k <> KDebug -> k' <> KDebug.
Proof.
  intros X dbg k p l t ch f lb d mo q k' ch' f' d' H K.
  assert (DF : default_ptl (fun f d => kind_predict dbg k (p ch) f d mo) (fun f d => kind_learn dbg k l ch f lb d mo) f d =
    Ok ((q, (k', ch')), f', d') -> k' <> KDebug).
  { intros E. apply default_ptl_inv in E. destruct E as (g & e & E). eapply kind_learn_debug; eauto. }
  destruct k; cbn [kind_ptl] in H; try (apply DF; exact H); try congruence.
  - binv H. binv H. destruct v0 as (((p0 & c0) & g) & e). binv H. inversion H; subst. discriminate.
  - binv H. destruct v as (((p0 & c0) & g) & e). inversion H; subst. discriminate.
Qed.
Lemma orel_know : forall A B (R : A -> B -> Prop) a b, orel R a b -> orel (fun x y => R x y /\ a = Ok x) a b.
Proof. intros A B R a b H. destruct H; constructor; auto. Qed.

Lemma predict_cong : forall dbg n m (r : red O n) (r' : red O m), SR n m r r' ->
  forall f d, predict dbg n r f d 0 = predict dbg m r' f d 0.
Proof. intros dbg n m r r' E f d. rewrite strip_predict. now rewrite E. Qed.

Lemma strip_learn : forall dbg n (r : red O n) f lb d,
  orel (prel (SR n _)) (learn dbg n r f lb d 0) (learn dbg _ (projT2 (strip n r)) f lb d 0).
Proof.
  intros dbg. induction n as [|n IH]; intros r f lb d.
  - cbn [strip projT2 projT1]. destruct (learn dbg 0 r f lb d 0) as [[[x f'] d']| |]; constructor. split; [|split]; reflexivity.
  - destruct r as ((w & k) & ch).
    assert (G : k <> KDebug -> orel (prel (SR (S n) _)) (learn dbg (S n) ((w, k, ch) : red O (S n)) f lb d 0)
      (learn dbg (S _) ((w, k, projT2 (strip n ch)) : red O (S _)) f lb d 0)).
    { intros K. cbn [learn]. apply wrap_rel. intros g e.
      rewrite kl0, (kl0 _ _ k (learn dbg _) (projT2 (strip n ch))).
      eapply orel_bind.
      - apply orel_know. apply (kind_learn_rel _ _ (SR n (projT1 (strip n ch)))).
        + intros a b h l e' mo E. pose proof (IH a h l e') as IH'. unfold SR in E. rewrite E in IH'. exact IH'.
        + unfold SR. now destruct (strip n ch).
      - intros (((k1 & c1) & f1) & d1) (((k2 & c2) & f2) & d2) (((E1 & E2) & E3 & E4) & E5).
        cbn [fst snd] in E1, E2, E3, E4. subst. constructor. split; [|split; reflexivity]. cbn [fst snd].
        apply sr_cons; [|exact E2]. eapply kind_learn_debug; [exact E5|exact K]. }
    destruct k; try (apply G; discriminate). clear G. cbn [strip]. rewrite debug_learn.
    destruct (IH ch f lb d) as [((c1 & f1) & d1) ((c2 & f2) & d2) (E1 & E2 & E3)| |]; constructor.
    split; [exact E1|split; [exact E2|exact E3]].
Qed.

Lemma strip_ptl : forall dbg n (r : red O n) f lb d,
  orel (prel (qrel (SR n _))) (predict_then_learn dbg n r f lb d 0) (predict_then_learn dbg _ (projT2 (strip n r)) f lb d 0).
Proof.
  intros dbg. induction n as [|n IH]; intros r f lb d.
  - cbn [strip projT2 projT1]. destruct (predict_then_learn dbg 0 r f lb d 0) as [[[x f'] d']| |]; constructor.
    repeat split.
  - destruct r as ((w & k) & ch).
    assert (G : k <> KDebug -> orel (prel (qrel (SR (S n) _))) (predict_then_learn dbg (S n) ((w, k, ch) : red O (S n)) f lb d 0)
      (predict_then_learn dbg (S _) ((w, k, projT2 (strip n ch)) : red O (S _)) f lb d 0)).
    { intros K. cbn [predict_then_learn]. apply wrap_rel. intros g e.
      rewrite kt0, (kt0 _ _ k (predict dbg _) (learn dbg _) (predict_then_learn dbg _) (projT2 (strip n ch))).
      eapply orel_bind.
      - apply orel_know. apply (kind_ptl_rel _ _ (SR n (projT1 (strip n ch)))).
        + intros a b h e' mo E. now apply predict_cong.
        + intros a b h l e' mo E. pose proof (strip_learn dbg n a h l e') as IH'. unfold SR in E. rewrite E in IH'. exact IH'.
        + intros a b h l e' mo E. pose proof (IH a h l e') as IH'. unfold SR in E. rewrite E in IH'. exact IH'.
        + unfold SR. now destruct (strip n ch).
      - intros (((q1 & (k1 & c1)) & f1) & d1) (((q2 & (k2 & c2)) & f2) & d2) (((E0 & E1 & E2) & E3 & E4) & E5).
        cbn [fst snd] in E0, E1, E2, E3, E4. subst. constructor. split; [|split; reflexivity]. cbn [fst snd]. split; [reflexivity|].
        cbn [fst snd]. apply sr_cons; [|exact E2]. eapply kind_ptl_debug; [exact E5|exact K]. }
    destruct k; try (apply G; discriminate). clear G. cbn [strip]. rewrite debug_ptl.
    destruct (IH ch f lb d) as [(((q1 & c1) & f1) & d1) (((q2 & c2) & f2) & d2) ((E0 & E1) & E2 & E3)| |]; constructor.
    cbn [fst snd] in *. split; [split; [exact E0|exact E1]|split; [exact E2|exact E3]].
Qed.

Lemma strip_sens : forall dbg n (r : red O n) f, sensitivity dbg n r f = sensitivity dbg _ (projT2 (strip n r)) f.
Proof.
  intros dbg. induction n as [|n IH]; intros r f; [reflexivity|]. destruct r as ((w & k) & ch).
  cbn [sensitivity snd]. rewrite IH. destruct k; reflexivity.
Qed.

Lemma strip_answers : forall dbg cs n (r : red O n), answers dbg r cs = answers dbg (projT2 (strip n r)) cs.
Proof.
  intros dbg. induction cs as [|c cs IH]; intros n r; [reflexivity|]. destruct c as [f|f lb|f lb|f]; cbn [answers].
  - unfold ws_predict. rewrite strip_predict.
    destruct (predict dbg _ (projT2 (strip n r)) f 0 0) as [[[p f'] d']| |]; cbn [bind]; auto. now rewrite (IH n r).
  - unfold ws_learn. pose proof (strip_learn dbg n r f lb 0) as L.
    destruct L as [((x & f') & d') ((y & g') & e') (E1 & E2 & E3)| |]; cbn [bind]; auto.
    cbn [fst snd] in E1, E2, E3. subst. rewrite (IH n x). unfold SR in E1. now rewrite E1.
  - unfold ws_ptl. pose proof (strip_ptl dbg n r f lb 0) as L.
    destruct L as [(((p & x) & f') & d') (((q & y) & g') & e') ((E0 & E1) & E2 & E3)| |]; cbn [bind]; auto.
    cbn [fst snd] in E0, E1, E2, E3. subst. rewrite (IH n x). unfold SR in E1. now rewrite E1.
  - rewrite strip_sens. destruct (sensitivity dbg _ (projT2 (strip n r)) f); auto. now rewrite (IH n r).
Qed.

(** configurations *)
Definition CR (R R' : anyred O) : Prop := strip (projT1 R) (projT2 R) = R' /\
  td_in_label (any_types R) = td_in_label (any_types R') /\ td_in_feats (any_types R) = td_in_feats (any_types R') /\
  td_out_pred (any_types R) = td_out_pred (any_types R').

Lemma td_bad_ext : forall t a b, td_in_label a = td_in_label b -> td_in_feats a = td_in_feats b -> td_out_pred a = td_out_pred b ->
  td_bad t a = td_bad t b.
Proof. intros t a b E1 E2 E3. unfold td_bad. now rewrite E1, E2, E3. Qed.

Lemma add_level_cr : forall nma td td' (k : kind O) a b, k <> KDebug -> td = td' -> CR a b ->
  orel CR (add_level nma td k a) (add_level nma td' k b).
Proof.
  intros nma td td' k a b K <- (E1 & E2 & E3 & E4). unfold add_level. rewrite (td_bad_ext td _ _ E2 E3 E4).
  destruct (td_bad td (any_types b)); constructor. split; [|repeat split; reflexivity]. cbn [projT1 projT2].
  rewrite strip_cons by exact K. now rewrite E1.
Qed.

Lemma strip_create : forall H dbg gc nma (c : rcfg O), square_on_mtr (without_debug c) ->
  orel CR (create H dbg gc nma c) (create H dbg gc nma (without_debug c)).
Proof.
  intros H dbg gc nma. induction c; intros Q; cbn [without_debug] in *; cbn [create].
  - destruct (coin_new H dbg cfg gc nma); constructor. repeat split.
  - eapply orel_bind; [apply IHc; exact Q|]. intros a b E. apply add_level_cr; [discriminate| |exact E].
    destruct E as (_ & E2 & E3 & E4). now rewrite ?E2, ?E3, ?E4.
  - eapply orel_bind; [apply IHc; exact Q|]. intros a b E. apply add_level_cr; [discriminate|reflexivity|exact E].
  - eapply orel_bind; [apply IHc; exact Q|]. intros a b E. apply add_level_cr; [discriminate|reflexivity|exact E].
  - eapply orel_bind; [apply IHc; exact Q|]. intros a b E. apply add_level_cr; [discriminate|reflexivity|exact E].
  - assert (N1 : forall y, without_debug c <> CCbAdf Ips y) by (intros y E; rewrite E in Q; exact Q).
    assert (N2 : forall y, c <> CCbAdf Ips y) by (intros y ->; exact (N1 (without_debug y) eq_refl)).
    assert (M : forall z : rcfg O, (forall y, z <> CCbAdf Ips y) ->
      match z with CCbAdf Ips _ => Er EInvalidArgument
      | _ => let* ch := create H dbg gc nma z in add_level nma td_explore (KSquareCb ueps gscale gexp 0) ch end =
      let* ch := create H dbg gc nma z in add_level nma td_explore (KSquareCb ueps gscale gexp 0) ch).
    { intros z Z. destruct z; auto. destruct ty; auto. exfalso. exact (Z _ eq_refl). }
    rewrite (M c N2), (M _ N1). eapply orel_bind; [apply IHc|].
    + clear -Q N1. cbn [square_on_mtr] in Q. destruct (without_debug c); auto. destruct ty; auto. contradiction.
    + intros a b E. apply add_level_cr; [discriminate|reflexivity|exact E].
  - eapply orel_bind; [apply IHc; exact Q|]. intros a b E. apply add_level_cr; [discriminate| |exact E].
    destruct E as (_ & E2 & E3 & E4). now rewrite ?E2, ?E3, ?E4.
  - rewrite <- (bind_ret _ (create H dbg gc nma (without_debug c))). eapply orel_bind; [apply IHc; exact Q|].
    intros a b (E1 & E2 & E3 & E4). unfold add_level. rewrite (td_bad_ext _ _ _ E2 E3 E4).
    unfold td_bad. cbn [td_out_label td_out_feats td_in_pred].
    rewrite E2, E3, E4. destruct (td_in_label (any_types b)) eqn:T1, (td_in_feats (any_types b)) eqn:T2, (td_out_pred (any_types b)) eqn:T3; cbn; constructor;
      (split; [exact E1|]); cbn; rewrite ?T1, ?T2, ?T3; auto.
  - constructor.
Qed.
End D.

Lemma debug_transparent : forall (O : FOps) H dbg gc (c : rcfg O) R, square_on_mtr (without_debug c) -> ws_new H dbg gc c = Ok R ->
  exists R', ws_new H dbg gc (without_debug c) = Ok R' /\ forall cs, answers dbg (projT2 R) cs = answers dbg (projT2 R') cs.
Proof.
  intros O H dbg gc c R Q E. pose proof (strip_create H dbg gc 1 c Q) as S. unfold ws_new in *. rewrite E in S. inversion S; subst.
  exists b. split; [reflexivity|]. intros cs. rewrite strip_answers. match goal with K : CR _ _ |- _ => destruct K as (K & _); now rewrite K end.
Qed.
Lemma debug_same_refusal : forall (O : FOps) H dbg gc (c : rcfg O), square_on_mtr (without_debug c) ->
  (forall e, ws_new H dbg gc c = Er e <-> ws_new H dbg gc (without_debug c) = Er e) /\
  (forall p, ws_new H dbg gc c = Pn p <-> ws_new H dbg gc (without_debug c) = Pn p).
Proof.
  intros O H dbg gc c Q. pose proof (strip_create H dbg gc 1 c Q) as S. unfold ws_new. 
  destruct S; split; intros; split; intros; congruence.
Qed.

Lemma create_square : forall (O : FOps) H dbg gc nma (c : rcfg O) R, create H dbg gc nma c = Ok R -> square_on_mtr c.
Proof.
  intros O H dbg gc nma. induction c; intros R E; cbn [create square_on_mtr] in *; auto;
    try (binv E; eapply IHc; exact B).
  assert (G : (exists y, c = CCbAdf Ips y) \/ exists R', create H dbg gc nma c = Ok R').
  { destruct c; try (binv E; right; exists v; exact B). destruct ty; [left; eauto|binv E; right; exists v; exact B]. }
  destruct G as [[y ->]|[R' G]]; [discriminate|]. apply IHc in G. destruct c; auto. destruct ty; auto. discriminate.
Qed.
Lemma debug_never_refuses : forall (O : FOps) H dbg gc (c : rcfg O) R', ws_new H dbg gc (without_debug c) = Ok R' ->
  exists R, ws_new H dbg gc c = Ok R /\ forall cs, answers dbg (projT2 R) cs = answers dbg (projT2 R') cs.
Proof.
  intros O H dbg gc c R' E. assert (Q := create_square _ _ _ _ _ _ _ E).
  pose proof (strip_create H dbg gc 1 c Q) as S. unfold ws_new in *. rewrite E in S. inversion S; subst.
  exists a. split; [reflexivity|]. intros cs. rewrite strip_answers. match goal with K : CR _ _ |- _ => destruct K as (K & _); now rewrite K end.
Qed.
Lemma debug_bypass : forall (O : FOps) H dbg gc cfg (u s e : O) co, coin_new H dbg cfg gc 1 = Ok co ->
  ws_new H dbg gc (CSquareCb u s e (CCbAdf Ips (CCoin cfg))) = Er EInvalidArgument /\
  exists R, ws_new H dbg gc (CSquareCb u s e (CDebug (CCbAdf Ips (CCoin cfg)))) = Ok R.
Proof.
  intros O H dbg gc cfg u s e co E. split; [reflexivity|]. unfold ws_new. cbn [create]. rewrite E. cbn [bind].
  eexists. reflexivity.
Qed.

(** an example with layers at several places *)
Definition ex_dbg_cfg : rcfg BF0 := CDebug (CGreedy (@f1 BF0) (CDebug (CDebug (CCbAdf Mtr (CDebug (CCoin coin_default)))))).
