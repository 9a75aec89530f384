(** Two stacks that differ only in related regressors give the same answers. *)
From Coq Require Import List NArith ZArith Bool Lia.
From Verif Require Import Base FloatOps Model_Hash Model_Features Model_Types Model_Interactions Model_Weights
  Model_Coin Model_Stack Model_Factory Spec_Stack Spec_Reductions Spec_Save
  Proof_StackRestore Proof_StackShape Proof_StackProps.
Import ListNotations.
Open Scope N_scope.

Section Rel.
Context {O : FOps}.

(** ** relations on results *)
Definition prel {X Y} (R : X -> Y -> Prop) (u : pres O X) (v : pres O Y) : Prop :=
  R (fst (fst u)) (fst (fst v)) /\ snd (fst u) = snd (fst v) /\ snd u = snd v.

Ltac pr :=
  let x := fresh "x" in let f' := fresh "f'" in let d' := fresh "d'" in
  let y := fresh "y" in let g' := fresh "g'" in let e' := fresh "e'" in
  let E1 := fresh "E" in let E2 := fresh "E" in let E3 := fresh "E" in
  intros ((x & f') & d') ((y & g') & e') (E1 & E2 & E3); simpl in E1, E2, E3; subst.
Ltac pd := constructor; split; [simpl; auto|split; reflexivity].

Lemma wrap_rel : forall X Y (R : X -> Y -> Prop) dbg nmb mo f d b1 b2,
  (forall f d, orel (prel R) (b1 f d) (b2 f d)) ->
  orel (prel R) (wrap dbg nmb mo f d b1) (wrap dbg nmb mo f d b2).
Proof.
  intros X Y R dbg nmb mo f d b1 b2 H. unfold wrap.
  destruct (depth_inc dbg d nmb mo); cbn [bind]; try constructor.
  eapply orel_bind; [apply H|]. pr.
  destruct (depth_dec dbg e' nmb mo); cbn [bind]; try constructor.
  destruct (dbg && negb (fts_absdiffeq f32_eps g' f)); [constructor|]. pd.
Qed.

Lemma elem_frame_rel : forall X Y (R : X -> Y -> Prop) dbg one two keep nb c1 c2 f,
  (forall f, orel (prel R) (c1 f) (c2 f)) ->
  orel (prel R) (elem_frame dbg one two keep nb c1 f) (elem_frame dbg one two keep nb c2 f).
Proof.
  intros X Y R dbg one two keep nb c1 c2 f H. unfold elem_frame.
  destruct (as_simple f) as [s|e|p]; cbn [bind]; try constructor.
  destruct (elem_multiply dbg nb s one two) as [dest|e|p]; cbn [bind]; try constructor.
  destruct keep.
  - eapply orel_bind; [apply H|]. pr. pd.
  - destruct (sf_remove_ns one _) as [o1 s2]. destruct o1; cbn [opt_or bind]; try constructor.
    destruct (sf_remove_ns two _) as [o2 s3]. destruct o2; cbn [opt_or bind]; try constructor.
    eapply orel_bind; [apply H|]. pr. pd.
Qed.

(** ** predictions are equal when the child's are *)
Lemma cb_predict_loop_ext : forall dbg c1 c2 s x i d,
  (forall f d mo, c1 f d mo = c2 f d mo) ->
  cb_predict_loop (O := O) dbg c1 s x i d = cb_predict_loop dbg c2 s x i d.
Proof.
  intros dbg c1 c2 s x i d H. revert i d. induction x as [|a x IH]; intros i d; [reflexivity|].
  cbn [cb_predict_loop]. destruct (append_opt a s) as [a1| |]; cbn [bind]; auto. rewrite H.
  destruct (c2 (FtsSimple a1) d 0) as [[[p f'] d']| |]; cbn [bind]; auto.
  destruct (as_scalar p); cbn [bind]; auto.
  destruct (remove_opt dbg (back_simple a1 f') s); cbn [bind]; auto. now rewrite IH.
Qed.

Lemma elem_frame_ext : forall X dbg one two keep nb (c1 c2 : features O -> out (pres O X)) f,
  (forall f, c1 f = c2 f) ->
  elem_frame dbg one two keep nb c1 f = elem_frame dbg one two keep nb c2 f.
Proof.
  intros X dbg one two keep nb c1 c2 f H. unfold elem_frame.
  destruct (as_simple f) as [s|e|p]; cbn [bind]; auto.
  destruct (elem_multiply dbg nb s one two) as [dest|e|p]; cbn [bind]; auto.
  destruct keep; [now rewrite H|].
  destruct (sf_remove_ns one _) as [o1 s2]. destruct o1; cbn [opt_or bind]; auto.
  destruct (sf_remove_ns two _) as [o2 s3]. destruct o2; cbn [opt_or bind]; auto. now rewrite H.
Qed.

Lemma kind_predict_ext : forall dbg k c1 c2 f d mo,
  (forall f d mo, c1 f d mo = c2 f d mo) ->
  kind_predict (O := O) dbg k c1 f d mo = kind_predict dbg k c2 f d mo.
Proof.
  intros dbg k c1 c2 f d mo H. destruct k; cbn [kind_predict]; rewrite ?H; auto.
  - destruct (as_cb f) as [[s x]| |]; cbn [bind]; auto. now rewrite (cb_predict_loop_ext dbg c1 c2).
  - now apply elem_frame_ext.
Qed.

Lemma wrap_ext' : forall X dbg nmb mo f d (b1 b2 : features O -> N -> out (pres O X)),
  (forall f d, b1 f d = b2 f d) -> wrap dbg nmb mo f d b1 = wrap dbg nmb mo f d b2.
Proof.
  intros X dbg nmb mo f d b1 b2 H. unfold wrap.
  destruct (depth_inc dbg d nmb mo); cbn [bind]; auto. now rewrite H.
Qed.

(** ** learning *)
Definition krel {X Y} (R : X -> Y -> Prop) (u : kind O * X) (v : kind O * Y) : Prop :=
  fst u = fst v /\ R (snd u) (snd v).
Definition qrel {P X Y} (R : X -> Y -> Prop) (u : P * X) (v : P * Y) : Prop :=
  fst u = fst v /\ R (snd u) (snd v).
Definition lrel {X Y} (R : X -> Y -> Prop) (u : X * list (sfeats O) * N) (v : Y * list (sfeats O) * N) : Prop :=
  R (fst (fst u)) (fst (fst v)) /\ snd (fst u) = snd (fst v) /\ snd u = snd v.

Lemma cb_ips_loop_rel : forall X Y (R : X -> Y -> Prop) dbg l1 l2 act cost prob s x i ch ch' d,
  (forall ch ch' f lb d mo, R ch ch' -> orel (prel R) (l1 ch f lb d mo) (l2 ch' f lb d mo)) -> R ch ch' ->
  orel (lrel R) (cb_ips_loop dbg l1 act cost prob s x i ch d) (cb_ips_loop dbg l2 act cost prob s x i ch' d).
Proof.
  intros X Y R dbg l1 l2 act cost prob s x i ch ch' d H. revert i ch ch' d.
  induction x as [|a x IH]; intros i ch ch' d Hr; cbn [cb_ips_loop].
  - pd.
  - destruct (append_opt a s) as [a1| |]; cbn [bind]; try constructor.
    destruct (ips_label dbg act cost prob i) as [lb| |]; cbn [bind]; try constructor.
    eapply orel_bind; [apply H; exact Hr|]. pr.
    destruct (remove_opt dbg (back_simple a1 g') s); cbn [bind]; try constructor.
    eapply orel_bind; [apply IH; exact E|]. intros ((c1 & m1) & d1) ((c2 & m2) & d2) (Q1 & Q2 & Q3).
    simpl in Q1, Q2, Q3. subst. pd.
Qed.

Lemma kind_learn_rel : forall X Y (R : X -> Y -> Prop) dbg k l1 l2 ch ch' f lb d mo,
  (forall ch ch' f lb d mo, R ch ch' -> orel (prel R) (l1 ch f lb d mo) (l2 ch' f lb d mo)) -> R ch ch' ->
  orel (prel (krel R)) (kind_learn dbg k l1 ch f lb d mo) (kind_learn dbg k l2 ch' f lb d mo).
Proof.
  intros X Y R dbg k l1 l2 ch ch' f lb d mo H Hr.
  destruct k; cbn [kind_learn];
    try (eapply orel_bind; [apply H; exact Hr|]; pr; constructor; split; [split; simpl; auto|split; reflexivity]).
  - destruct (as_binary_label lb); cbn [bind]; try constructor.
    eapply orel_bind; [apply H; exact Hr|]; pr; constructor; split; [split; simpl; auto|split; reflexivity].
  - destruct (as_cb f) as [[s x]| |]; cbn [bind]; try constructor.
    destruct (as_cb_label lb) as [((act & cost) & prob)| |]; cbn [bind]; try constructor.
    destruct ty.
    + eapply orel_bind; [apply cb_ips_loop_rel; [exact H|exact Hr]|].
      intros ((c1 & m1) & d1) ((c2 & m2) & d2) (Q1 & Q2 & Q3). simpl in Q1, Q2, Q3. subst.
      constructor; split; [split; simpl; auto|split; reflexivity].
    + destruct (add64 dbg action_sum (N.of_nat (length x))); cbn [bind]; try constructor.
      destruct (add64 dbg event_sum 1); cbn [bind]; try constructor.
      destruct s as [s|]; [|constructor].
      destruct (nth_error x (N.to_nat act)) as [ax|]; cbn [opt_or bind]; try constructor.
      destruct (sf_append s ax) as [s1| |]; cbn [bind]; try constructor.
      eapply orel_bind; [apply H; exact Hr|]. pr.
      destruct (sf_remove dbg (back_simple s1 g') ax); cbn [bind]; try constructor.
      split; [split; simpl; auto|split; reflexivity].
  - destruct (as_cb_label lb) as [((act & cost) & prob)| |]; cbn [bind]; try constructor.
    eapply orel_bind; [apply H; exact Hr|]. pr.
    destruct (add64 dbg counter 1); cbn [bind]; try constructor.
    split; [split; simpl; auto|split; reflexivity].
  - eapply orel_bind; [apply elem_frame_rel; intros; apply H; exact Hr|]. pr.
    constructor; split; [split; simpl; auto|split; reflexivity].
Qed.

Lemma default_ptl_rel : forall X Y (R : X -> Y -> Prop) p1 p2 l1 l2 f d,
  (forall f d, p1 f d = p2 f d) -> (forall f d, orel (prel R) (l1 f d) (l2 f d)) ->
  orel (prel (qrel R)) (default_ptl p1 l1 f d) (default_ptl p2 l2 f d).
Proof.
  intros X Y R p1 p2 l1 l2 f d HP HL. unfold default_ptl. rewrite HP.
  destruct (p2 f d) as [[[p f1] d1]| |]; cbn [bind]; try constructor.
  eapply orel_bind; [apply HL|]. pr.
  destruct (e' =? d)%N; constructor. split; [split; simpl; auto|split; reflexivity].
Qed.

Lemma kind_ptl_rel : forall X Y (R : X -> Y -> Prop) dbg k p1 p2 l1 l2 t1 t2 ch ch' f lb d mo,
  (forall ch ch' f d mo, R ch ch' -> p1 ch f d mo = p2 ch' f d mo) ->
  (forall ch ch' f lb d mo, R ch ch' -> orel (prel R) (l1 ch f lb d mo) (l2 ch' f lb d mo)) ->
  (forall ch ch' f lb d mo, R ch ch' -> orel (prel (qrel R)) (t1 ch f lb d mo) (t2 ch' f lb d mo)) -> R ch ch' ->
  orel (prel (qrel (krel R))) (kind_ptl dbg k p1 l1 t1 ch f lb d mo) (kind_ptl dbg k p2 l2 t2 ch' f lb d mo).
Proof.
  intros X Y R dbg k p1 p2 l1 l2 t1 t2 ch ch' f lb d mo HP HL HT Hr.
  assert (D : orel (prel (qrel (krel R)))
    (default_ptl (fun f d => kind_predict dbg k (p1 ch) f d mo) (fun f d => kind_learn dbg k l1 ch f lb d mo) f d)
    (default_ptl (fun f d => kind_predict dbg k (p2 ch') f d mo) (fun f d => kind_learn dbg k l2 ch' f lb d mo) f d)).
  { apply default_ptl_rel.
    - intros; apply kind_predict_ext. intros; now apply HP.
    - intros; now apply kind_learn_rel. }
  destruct k; cbn [kind_ptl]; try exact D; clear D.
  - destruct (as_binary_label lb); cbn [bind]; try constructor.
    eapply orel_bind; [apply HT; exact Hr|]. pr. destruct x as (p & c1), y as (q & c2).
    destruct E as [Eq Er]. simpl in Eq, Er. subst q.
    destruct (as_scalar p); cbn [bind]; constructor. split; [split; [reflexivity|split; simpl; auto]|split; reflexivity].
  - eapply orel_bind; [apply elem_frame_rel; intros; apply HT; exact Hr|]. pr.
    destruct x as (p & c1), y as (q & c2). destruct E as [Eq Er]. simpl in Eq, Er. subst q.
    constructor. split; [split; [reflexivity|split; simpl; auto]|split; reflexivity].
  - eapply orel_bind; [apply HT; exact Hr|]. pr. destruct x as (p & c1), y as (q & c2).
    destruct E as [Eq Er]. simpl in Eq, Er. subst q.
    constructor. split; [split; [reflexivity|split; simpl; auto]|split; reflexivity].
Qed.

(** ** stacks *)
Section Coins.
Context (C : coin O -> coin O -> Prop).
Context (CP : forall dbg c c' f, C c c' -> coin_predict dbg c f = coin_predict dbg c' f).
Context (CL : forall dbg c c' f v w, C c c' -> orel C (coin_learn dbg c f v w) (coin_learn dbg c' f v w)).
Context (CS : forall dbg c c' f, C c c' -> coin_sensitivity dbg c f = coin_sensitivity dbg c' f).

Fixpoint rrel (n : nat) : red O n -> red O n -> Prop :=
  match n with
  | 0%nat => fun r r' => fst r = fst r' /\ C (snd r) (snd r')
  | S m => fun r r' => fst r = fst r' /\ rrel m (snd r) (snd r')
  end.

Lemma predict_rel : forall dbg n r r' f d mo, rrel n r r' -> predict dbg n r f d mo = predict dbg n r' f d mo.
Proof.
  induction n as [|n IH]; intros r r' f d mo H.
  - destruct r as (w & c), r' as (w' & c'). destruct H as [H1 H2]. simpl in H1, H2. subst w'.
    cbn [predict fst snd]. apply wrap_ext'. intros g e. unfold coin_predict_body.
    destruct (as_simple g); cbn [bind]; auto. now rewrite (CP dbg c c').
  - destruct r as ((w & k) & ch), r' as ((w' & k') & ch'). destruct H as [H1 H2]. simpl in H1, H2.
    inversion H1; subst. cbn [predict]. apply wrap_ext'. intros g e. apply kind_predict_ext. intros; now apply IH.
Qed.

Lemma coin_learn_body_rel : forall dbg c c' f lb d, C c c' ->
  orel (prel C) (coin_learn_body dbg c f lb d) (coin_learn_body dbg c' f lb d).
Proof.
  intros dbg c c' f lb d H. unfold coin_learn_body.
  destruct (as_simple f); cbn [bind]; try constructor.
  destruct (as_simple_label lb) as [[v w]| |]; cbn [bind]; try constructor.
  eapply orel_bind; [apply CL; exact H|]. intros x y E. pd.
Qed.

Lemma learn_rel : forall dbg n r r' f lb d mo, rrel n r r' ->
  orel (prel (rrel n)) (learn dbg n r f lb d mo) (learn dbg n r' f lb d mo).
Proof.
  induction n as [|n IH]; intros r r' f lb d mo H.
  - destruct r as (w & c), r' as (w' & c'). destruct H as [H1 H2]. simpl in H1, H2. subst w'.
    cbn [learn]. apply wrap_rel. intros g e. eapply orel_bind; [apply coin_learn_body_rel; exact H2|].
    pr. constructor. split; [split; simpl; auto|split; reflexivity].
  - destruct r as ((w & k) & ch), r' as ((w' & k') & ch'). destruct H as [H1 H2]. simpl in H1, H2.
    inversion H1; subst. cbn [learn]. apply wrap_rel. intros g e.
    eapply orel_bind; [apply (kind_learn_rel _ _ (rrel n)); [intros; now apply IH|exact H2]|].
    pr. destruct x as (k1 & c1), y as (k2 & c2). destruct E as [Q1 Q2]. simpl in Q1, Q2. subst.
    constructor. split; [split; simpl; auto|split; reflexivity].
Qed.

Lemma ptl_rel : forall dbg n r r' f lb d mo, rrel n r r' ->
  orel (prel (qrel (rrel n))) (predict_then_learn dbg n r f lb d mo) (predict_then_learn dbg n r' f lb d mo).
Proof.
  induction n as [|n IH]; intros r r' f lb d mo H.
  - destruct r as (w & c), r' as (w' & c'). destruct H as [H1 H2]. simpl in H1, H2. subst w'.
    cbn [predict_then_learn]. apply wrap_rel. intros g e.
    eapply orel_bind; [apply (default_ptl_rel _ _ C)|].
    + intros g1 e1. unfold coin_predict_body. destruct (as_simple g1); cbn [bind]; auto. now rewrite (CP dbg c c').
    + intros; now apply coin_learn_body_rel.
    + pr. destruct x as (k1 & c1), y as (k2 & c2). destruct E as [Q1 Q2]. simpl in Q1, Q2. subst.
      constructor. split; [split; [reflexivity|split; simpl; auto]|split; reflexivity].
  - destruct r as ((w & k) & ch), r' as ((w' & k') & ch'). destruct H as [H1 H2]. simpl in H1, H2.
    inversion H1; subst. cbn [predict_then_learn]. apply wrap_rel. intros g e.
    eapply orel_bind; [apply (kind_ptl_rel _ _ (rrel n)); [intros; now apply predict_rel|intros; now apply learn_rel|intros; now apply IH|exact H2]|].
    pr. destruct x as (p1 & (k1 & c1)), y as (p2 & (k2 & c2)). destruct E as [Q1 [Q2 Q3]]. simpl in Q1, Q2, Q3. subst.
    constructor. split; [split; [reflexivity|split; simpl; auto]|split; reflexivity].
Qed.

Lemma sens_rel : forall dbg n r r' f, rrel n r r' -> sensitivity dbg n r f = sensitivity dbg n r' f.
Proof.
  induction n as [|n IH]; intros r r' f H; cbn [sensitivity].
  - destruct (as_simple f); cbn [bind]; auto. apply CS. apply H.
  - apply IH. apply H.
Qed.

Lemma answers_rel : forall dbg n cs (r r' : red O n), rrel n r r' -> answers dbg r cs = answers dbg r' cs.
Proof.
  intros dbg n. induction cs as [|c cs IH]; intros r r' H; [reflexivity|]. destruct c as [f|f lb|f lb|f]; cbn [answers].
  - unfold ws_predict. rewrite (predict_rel dbg n r r') by exact H.
    destruct (predict dbg n r' f 0 0) as [[[p f'] d']| |]; cbn [bind]; auto. now rewrite (IH r r').
  - unfold ws_learn. pose proof (learn_rel dbg n r r' f lb 0 0 H) as L.
    destruct L as [((x & f') & d') ((y & g') & e') (E1 & E2 & E3)| |]; cbn [bind]; auto.
    simpl in E1, E2, E3. subst. now rewrite (IH x y).
  - unfold ws_ptl. pose proof (ptl_rel dbg n r r' f lb 0 0 H) as L.
    destruct L as [(((p & x) & f') & d') (((q & y) & g') & e') (E1 & E2 & E3)| |]; cbn [bind]; auto.
    destruct E1 as [Q1 Q2]. simpl in Q1, Q2, E2, E3. subst. now rewrite (IH x y).
  - rewrite (sens_rel dbg n r r') by exact H. destruct (sensitivity dbg n r' f); auto. now rewrite (IH r r').
Qed.
End Coins.

(** ** invariants of the regressor at the bottom *)
Section Bottom.
Context (P : coin O -> Prop).
Context (PL : forall dbg c f v w c', P c -> coin_learn dbg c f v w = Ok c' -> P c').

Lemma learn_inv : forall dbg n (r : red O n) f lb d mo r' f' d',
  learn dbg n r f lb d mo = Ok (r', f', d') -> P (bottom n r) -> P (bottom n r').
Proof.
  induction n as [|n IH]; intros r f lb d mo r' f' d' H.
  - destruct r as (w & c). cbn [learn] in H. apply wrap_ok in H. destruct H as (d1 & d2 & H).
    binv H. destruct v as ((c' & g) & e). inversion H; subst. unfold coin_learn_body in B. binv B. binv B. binv B.
    inversion B; subst. simpl. intros G. eapply PL; eauto.
  - destruct r as ((w & k) & ch). cbn [learn] in H. apply wrap_ok in H. destruct H as (d1 & d2 & H).
    binv H. destruct v as (((k' & ch') & g) & e). inversion H; subst. clear H. cbn [bottom snd].
    refine (proj2 (kind_learn_shape _ (fun a b : red O n => P (bottom n a) -> P (bottom n b))
      _ _ _ _ _ _ _ _ _ _ _ _ _ _ _ B)); eauto.
Qed.

Lemma ptl_inv : forall dbg n (r : red O n) f lb d mo p r' f' d',
  predict_then_learn dbg n r f lb d mo = Ok ((p, r'), f', d') -> P (bottom n r) -> P (bottom n r').
Proof.
  induction n as [|n IH]; intros r f lb d mo p r' f' d' H.
  - destruct r as (w & c). cbn [predict_then_learn] in H. apply wrap_ok in H. destruct H as (d1 & d2 & H).
    binv H. destruct v as (((p' & c') & g) & e). inversion H; subst. apply default_ptl_inv in B. destruct B as (g & e & B).
    unfold coin_learn_body in B. binv B. binv B. binv B.
    inversion B; subst. simpl. intros G. eapply PL; eauto.
  - destruct r as ((w & k) & ch). cbn [predict_then_learn] in H. apply wrap_ok in H. destruct H as (d1 & d2 & H).
    binv H. destruct v as (((p' & (k' & ch')) & g) & e). inversion H; subst. clear H. cbn [bottom snd].
    assert (DF : forall l, default_ptl (fun f d => kind_predict dbg k (predict dbg n ch) f d mo) l f d1 = Ok (p, (k', ch'), f', d2) ->
       l = (fun f d => kind_learn dbg k (learn dbg n) ch f lb d mo) ->
       P (bottom n ch) -> P (bottom n ch')).
    { intros l E ->. apply default_ptl_inv in E. destruct E as (g & e & E).
      refine (proj2 (kind_learn_shape _ (fun a b : red O n => P (bottom n a) -> P (bottom n b))
        _ _ _ _ _ _ _ _ _ _ _ _ _ _ _ E)); eauto using learn_inv. }
    destruct k; cbn [kind_ptl] in B; try (eapply DF; [exact B|reflexivity]).
    + binv B. binv B. destruct v0 as (((p0 & c0) & g) & e). binv B. inversion B; subst. eapply IH; eauto.
    + binv B. destruct v as (((p0 & c0) & g) & e). inversion B; subst. apply elem_frame_inv in B0.
      destruct B0 as (g0 & g1 & B0). eapply IH; eauto.
    + binv B. destruct v as (((p0 & c0) & g) & e). inversion B; subst. eapply IH; eauto.
Qed.

Lemma reach_coin : forall dbg n (r0 r : red O n), reach dbg r0 r -> P (bottom n r0) -> P (bottom n r).
Proof.
  intros dbg n r0 r Q I0. induction Q; auto.
  - unfold ws_learn in H. binv H. destruct v as ((r1 & g) & e). inversion H; subst. eapply learn_inv; eauto.
  - unfold ws_ptl in H. binv H. destruct v as (((p1 & r1) & g) & e). inversion H; subst. eapply ptl_inv; eauto.
Qed.
End Bottom.

Lemma create_coin : forall H dbg gc nma (c : rcfg O) R, create H dbg gc nma c = Ok R ->
  exists cfg, coin_new H dbg cfg gc nma = Ok (bottom (projT1 R) (projT2 R)).
Proof.
  intros H dbg gc nma c.
  induction c; intros R E; cbn [create] in E; try discriminate;
    try (binv E; apply add_level_ok in E; destruct E as (-> & _); cbn [projT1 projT2 bottom snd]; apply IHc; auto; fail).
  - binv E. inversion E; subst. cbn [projT1 projT2 bottom snd]. exists cfg. exact B.
  - assert (E' : (let* ch := create H dbg gc nma c in add_level nma td_explore (KSquareCb ueps gscale gexp 0) ch) = Ok R).
    { destruct c; auto. destruct ty; auto. discriminate. }
    clear E. rename E' into E. binv E. apply add_level_ok in E. destruct E as (-> & _).
    cbn [projT1 projT2 bottom snd]. apply IHc; auto.
Qed.
End Rel.
