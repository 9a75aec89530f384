(** Two stacks with related regressors, given related features, give the same answers
    (without the element-wise reduction, in release builds). *)
From Coq Require Import List NArith ZArith Bool Lia.
From Verif Require Import Base FloatOps Model_Hash Model_Features Model_Types Model_Interactions Model_Weights
  Model_Coin Model_Stack Model_Factory Spec_Stack Spec_Reductions Spec_Save Spec_Empty
  Proof_StackRestore Proof_StackShape Proof_StackProps Proof_EmptyProps.
Import ListNotations.
Open Scope N_scope.

Section Two.
Context {O : FOps} (Z : sfeats O -> sfeats O -> Prop).
Context (ZA : forall a b s t, Z a b -> Z s t -> orel Z (sf_append a s) (sf_append b t)).
Context (ZR : forall a b s t, Z a b -> Z s t -> orel Z (sf_remove false a s) (sf_remove false b t)).

Definition zopt2 (s t : option (sfeats O)) : Prop :=
  match s, t with Some a, Some b => Z a b | None, None => True | _, _ => False end.
Definition zfts (f g : features O) : Prop :=
  match f, g with
  | FtsSimple a, FtsSimple b => Z a b
  | FtsCb s x, FtsCb t y => zopt2 s t /\ Forall2 Z x y
  | _, _ => False
  end.
Definition prelz {X Y} (R : X -> Y -> Prop) (u : pres O X) (v : pres O Y) : Prop :=
  R (fst (fst u)) (fst (fst v)) /\ zfts (snd (fst u)) (snd (fst v)) /\ snd u = snd v.
Definition krelz {X Y} (R : X -> Y -> Prop) (u : kind O * X) (v : kind O * Y) : Prop :=
  fst u = fst v /\ (forall one two keep nb, fst u <> KElem one two keep nb) /\ R (snd u) (snd v).
Definition qrelz {P X Y} (R : X -> Y -> Prop) (u : P * X) (v : P * Y) : Prop := fst u = fst v /\ R (snd u) (snd v).
Definition lrelz {X Y} (R : X -> Y -> Prop) (u : X * list (sfeats O) * N) (v : Y * list (sfeats O) * N) : Prop :=
  R (fst (fst u)) (fst (fst v)) /\ Forall2 Z (snd (fst u)) (snd (fst v)) /\ snd u = snd v.

Ltac pr :=
  let x := fresh "x" in let f' := fresh "f'" in let d' := fresh "d'" in
  let y := fresh "y" in let g' := fresh "g'" in let e' := fresh "e'" in
  let E1 := fresh "E" in let E2 := fresh "E" in let E3 := fresh "E" in
  intros ((x & f') & d') ((y & g') & e') (E1 & E2 & E3); cbn [fst snd] in E1, E2, E3; subst.
Ltac pd := constructor; split; [cbn [fst snd]; auto|split; [cbn [fst snd]; auto|reflexivity]].

Lemma orel_eq : forall A X Y (R : X -> Y -> Prop) (m : out A) k1 k2,
  (forall x, orel R (k1 x) (k2 x)) -> orel R (bind m k1) (bind m k2).
Proof. intros A X Y R [x| |] k1 k2 H; cbn [bind]; try constructor. apply H. Qed.
Lemma append_opt_z : forall a b s t, Z a b -> zopt2 s t -> orel Z (append_opt a s) (append_opt b t).
Proof. intros a b [s|] [t|] A B; simpl in *; try tauto; auto. now constructor. Qed.
Lemma remove_opt_z : forall a b s t, Z a b -> zopt2 s t -> orel Z (remove_opt false a s) (remove_opt false b t).
Proof. intros a b [s|] [t|] A B; simpl in *; try tauto; auto. now constructor. Qed.
Lemma back_z : forall a b f g, Z a b -> zfts f g -> Z (back_simple a f) (back_simple b g).
Proof. intros a b [f|] [g|]; simpl; tauto. Qed.
Lemma wrap_z2 : forall X Y (R : X -> Y -> Prop) nmb mo f g d b1 b2,
  zfts f g -> (forall f g d, zfts f g -> orel (prelz R) (b1 f d) (b2 g d)) ->
  orel (prelz R) (wrap false nmb mo f d b1) (wrap false nmb mo g d b2).
Proof.
  intros X Y R nmb mo f g d b1 b2 Q H. unfold wrap. apply orel_eq. intros d1.
  eapply orel_bind; [apply H; exact Q|]. pr. apply orel_eq. intros d3. cbn [andb]. pd.
Qed.

Lemma cb_predict_loop_z2 : forall c1 c2 s t x y i d,
  (forall f g d mo, zfts f g -> orel (prelz eq) (c1 f d mo) (c2 g d mo)) -> zopt2 s t -> Forall2 Z x y ->
  orel (lrelz eq) (cb_predict_loop (O := O) false c1 s x i d) (cb_predict_loop false c2 t y i d).
Proof.
  intros c1 c2 s t x y i d H Q F. revert i d. induction F as [|a b x y Hab F IH]; intros i d; cbn [cb_predict_loop].
  - constructor. split; [reflexivity|split; [constructor|reflexivity]].
  - eapply orel_bind; [apply append_opt_z; eauto|]. intros a1 b1 Z1.
    eapply orel_bind; [apply H; exact Z1|]. pr. apply orel_eq. intros sc.
    eapply orel_bind; [apply remove_opt_z; [apply back_z; eassumption|exact Q]|]. intros a2 b2 Z2.
    eapply orel_bind; [apply IH|]. intros ((s1 & m1) & d1) ((s2 & m2) & d2) (Q1 & Q2 & Q3).
    cbn [fst snd] in Q1, Q2, Q3. subst. constructor. split; [reflexivity|split; [cbn [fst snd]; now constructor|reflexivity]].
Qed.
Lemma kind_predict_z2 : forall k c1 c2 f g d mo, (forall one two keep nb, k <> KElem one two keep nb) ->
  (forall f g d mo, zfts f g -> orel (prelz eq) (c1 f d mo) (c2 g d mo)) -> zfts f g ->
  orel (prelz eq) (kind_predict (O := O) false k c1 f d mo) (kind_predict false k c2 g d mo).
Proof.
  intros k c1 c2 f g d mo NE H Q. destruct k; cbn [kind_predict];
    try (eapply orel_bind; [apply H; exact Q|pr; repeat (apply orel_eq; intros ?); pd]).
  - destruct f as [a|s x], g as [b|t y]; simpl in Q; try tauto; simpl as_cb; cbn [bind fst snd]; [constructor|]. destruct Q as (Qs & Qx).
    eapply orel_bind; [apply cb_predict_loop_z2; eauto|].
    intros ((s1 & m1) & d1) ((s2 & m2) & d2) (Q1 & Q2 & Q3). cbn [fst snd] in Q1, Q2, Q3. subst.
    constructor. split; [reflexivity|split; [split; auto|reflexivity]].
  - exfalso. eapply NE. reflexivity.
  - now apply H.
Qed.
Lemma cb_ips_loop_z2 : forall X Y (R : X -> Y -> Prop) l1 l2 act cost prob s t x y i ch ch' d,
  (forall ch ch' f g lb d mo, R ch ch' -> zfts f g -> orel (prelz R) (l1 ch f lb d mo) (l2 ch' g lb d mo)) -> R ch ch' ->
  zopt2 s t -> Forall2 Z x y ->
  orel (lrelz R) (cb_ips_loop false l1 act cost prob s x i ch d) (cb_ips_loop false l2 act cost prob t y i ch' d).
Proof.
  intros X Y R l1 l2 act cost prob s t x y i ch ch' d H Hr Q F. revert i ch ch' d Hr.
  induction F as [|a b x y Hab F IH]; intros i ch ch' d Hr; cbn [cb_ips_loop].
  - constructor. split; [exact Hr|split; [constructor|reflexivity]].
  - eapply orel_bind; [apply append_opt_z; eauto|]. intros a1 b1 Z1. apply orel_eq. intros lb.
    eapply orel_bind; [apply H; [exact Hr|exact Z1]|]. pr.
    eapply orel_bind; [apply remove_opt_z; [apply back_z; eassumption|exact Q]|]. intros a2 b2 Z2.
    eapply orel_bind; [apply IH; eassumption|]. intros ((s1 & m1) & d1) ((s2 & m2) & d2) (Q1 & Q2 & Q3).
    cbn [fst snd] in Q1, Q2, Q3. subst. constructor. split; [exact Q1|split; [cbn [fst snd]; now constructor|reflexivity]].
Qed.
Lemma F2_nth : forall x y n, Forall2 Z x y -> match nth_error x n, nth_error y n with
  | Some a, Some b => Z a b | None, None => True | _, _ => False end.
Proof. intros x y n F. revert n. induction F; intros [|n]; simpl; auto. apply IHF. Qed.
Lemma kind_learn_z2 : forall X Y (R : X -> Y -> Prop) k l1 l2 ch ch' f g lb d mo, (forall one two keep nb, k <> KElem one two keep nb) ->
  (forall ch ch' f g lb d mo, R ch ch' -> zfts f g -> orel (prelz R) (l1 ch f lb d mo) (l2 ch' g lb d mo)) -> R ch ch' -> zfts f g ->
  orel (prelz (krelz R)) (kind_learn false k l1 ch f lb d mo) (kind_learn false k l2 ch' g lb d mo).
Proof.
  intros X Y R k l1 l2 ch ch' f g lb d mo NE H Hr Q.
  destruct k; cbn [kind_learn];
    try (eapply orel_bind; [apply H; [exact Hr|exact Q]|]; pr; constructor; split; [split; [reflexivity|split; [intros; discriminate|exact E]]|split; [exact E0|reflexivity]]).
  - apply orel_eq. intros b. eapply orel_bind; [apply H; [exact Hr|exact Q]|]; pr; constructor; split; [split; [reflexivity|split; [intros; discriminate|exact E]]|split; [exact E0|reflexivity]].
  - destruct f as [a|s x], g as [b|t y]; simpl in Q; try tauto; simpl as_cb; cbn [bind fst snd]; [constructor|]. destruct Q as (Qs & Qx).
    apply orel_eq. intros ((act & cost) & prob). destruct ty.
    + eapply orel_bind; [eapply cb_ips_loop_z2; [exact H|exact Hr|exact Qs|exact Qx]|].
      intros ((c1 & m1) & d1) ((c2 & m2) & d2) (Q1 & Q2 & Q3). cbn [fst snd] in Q1, Q2, Q3. subst.
      constructor; split; [split; [reflexivity|split; [intros; discriminate|exact Q1]]|split; [split; cbn [fst snd]; auto|reflexivity]].
    + assert (L : length x = length y) by (clear - Qx; induction Qx; simpl; congruence). rewrite L.
      do 2 (apply orel_eq; intros ?). destruct s as [s|], t as [t|]; simpl in Qs; try tauto; [|constructor].
      pose proof (F2_nth x y (N.to_nat act) Qx) as Hn.
      destruct (nth_error x (N.to_nat act)) as [a|], (nth_error y (N.to_nat act)) as [b|]; try tauto; cbn [opt_or bind]; [|constructor].
      eapply orel_bind; [apply ZA; eauto|]. intros s1 t1 Z1.
      eapply orel_bind; [apply H; [exact Hr|exact Z1]|]. pr.
      eapply orel_bind; [apply ZR; [apply back_z; eassumption|exact Hn]|]. intros s2 t2 Z2.
      constructor. split; [split; [reflexivity|split; [intros; discriminate|assumption]]|split; [split; cbn [fst snd]; auto|reflexivity]].
  - apply orel_eq. intros ((act & cost) & prob). eapply orel_bind; [apply H; [exact Hr|exact Q]|]. pr.
    apply orel_eq. intros ?. constructor; split; [split; [reflexivity|split; [intros; discriminate|assumption]]|split; [assumption|reflexivity]].
  - exfalso. eapply NE. reflexivity.
Qed.
Lemma default_ptl_z2 : forall X Y (R : X -> Y -> Prop) p1 p2 l1 l2 f g d, zfts f g ->
  (forall f g d, zfts f g -> orel (prelz eq) (p1 f d) (p2 g d)) ->
  (forall f g d, zfts f g -> orel (prelz R) (l1 f d) (l2 g d)) ->
  orel (prelz (qrelz R)) (default_ptl p1 l1 f d) (default_ptl p2 l2 g d).
Proof.
  intros X Y R p1 p2 l1 l2 f g d Q HP HL. unfold default_ptl.
  eapply orel_bind; [apply HP; exact Q|]. pr. eapply orel_bind; [apply HL; eassumption|]. pr.
  match goal with |- context [if ?b then _ else _] => destruct b end; constructor. split; [split; cbn [fst snd]; auto|split; [assumption|reflexivity]].
Qed.
Lemma kind_ptl_z2 : forall X Y (R : X -> Y -> Prop) k p1 p2 l1 l2 t1 t2 ch ch' f g lb d mo, (forall one two keep nb, k <> KElem one two keep nb) ->
  (forall ch ch' f g d mo, R ch ch' -> zfts f g -> orel (prelz eq) (p1 ch f d mo) (p2 ch' g d mo)) ->
  (forall ch ch' f g lb d mo, R ch ch' -> zfts f g -> orel (prelz R) (l1 ch f lb d mo) (l2 ch' g lb d mo)) ->
  (forall ch ch' f g lb d mo, R ch ch' -> zfts f g -> orel (prelz (qrelz R)) (t1 ch f lb d mo) (t2 ch' g lb d mo)) -> R ch ch' -> zfts f g ->
  orel (prelz (qrelz (krelz R))) (kind_ptl false k p1 l1 t1 ch f lb d mo) (kind_ptl false k p2 l2 t2 ch' g lb d mo).
Proof.
  intros X Y R k p1 p2 l1 l2 t1 t2 ch ch' f g lb d mo NE HP HL HT Hr Q.
  assert (D : orel (prelz (qrelz (krelz R)))
    (default_ptl (fun f d => kind_predict false k (p1 ch) f d mo) (fun f d => kind_learn false k l1 ch f lb d mo) f d)
    (default_ptl (fun f d => kind_predict false k (p2 ch') f d mo) (fun f d => kind_learn false k l2 ch' f lb d mo) g d)).
  { apply default_ptl_z2; auto.
    - intros; apply kind_predict_z2; auto.
    - intros; now apply kind_learn_z2. }
  destruct k; cbn [kind_ptl]; try exact D; clear D.
  - apply orel_eq. intros b. eapply orel_bind; [apply HT; [exact Hr|exact Q]|]. pr. destruct x as (p & c1), y as (q & c2).
    destruct E as [Eq Er]. cbn [fst snd] in Eq, Er. subst q. apply orel_eq. intros ?.
    constructor. split; [split; [reflexivity|split; [reflexivity|split; [intros; discriminate|assumption]]]|split; [assumption|reflexivity]].
  - exfalso. eapply NE. reflexivity.
  - eapply orel_bind; [apply HT; [exact Hr|exact Q]|]. pr. destruct x as (p & c1), y as (q & c2).
    destruct E as [Eq Er]. cbn [fst snd] in Eq, Er. subst q.
    constructor. split; [split; [reflexivity|split; [reflexivity|split; [intros; discriminate|assumption]]]|split; [assumption|reflexivity]].
Qed.

Section Coins.
Context (C : coin O -> coin O -> Prop).
Context (CP : forall c c' a b, C c c' -> Z a b -> coin_predict false c a = coin_predict false c' b).
Context (CL : forall c c' a b v w, C c c' -> Z a b -> orel C (coin_learn false c a v w) (coin_learn false c' b v w)).
(** the same stack without the element-wise reduction, above related regressors *)
Fixpoint rrelz (n : nat) : red O n -> red O n -> Prop :=
  match n with
  | 0%nat => fun r r' => fst r = fst r' /\ C (snd r) (snd r')
  | S m => fun r r' => fst r = fst r' /\ (forall one two keep nb, snd (fst r) <> KElem one two keep nb) /\ rrelz m (snd r) (snd r')
  end.
Lemma coin_predict_body_z2 : forall c c' f g d, C c c' -> zfts f g ->
  orel (prelz eq) (coin_predict_body false c f d) (coin_predict_body false c' g d).
Proof.
  intros c c' f g d H Q. unfold coin_predict_body. destruct f as [a|s x], g as [b|t y]; simpl in Q; try tauto; simpl as_simple; cbn [bind]; [|constructor].
  rewrite (CP c c' a b) by assumption. apply orel_eq. intros p. pd.
Qed.
Lemma coin_learn_body_z2 : forall c c' f g lb d, C c c' -> zfts f g ->
  orel (prelz C) (coin_learn_body false c f lb d) (coin_learn_body false c' g lb d).
Proof.
  intros c c' f g lb d H Q. unfold coin_learn_body. destruct f as [a|s x], g as [b|t y]; simpl in Q; try tauto; simpl as_simple; cbn [bind]; [|constructor].
  apply orel_eq. intros (v & w). eapply orel_bind; [apply CL; eassumption|]. intros x y E. pd.
Qed.
Lemma predict_z2 : forall n r r' f g d mo, rrelz n r r' -> zfts f g -> orel (prelz eq) (predict false n r f d mo) (predict false n r' g d mo).
Proof.
  induction n as [|n IH]; intros r r' f g d mo H Q.
  - destruct r as (w & c), r' as (w' & c'). destruct H as [H1 H2]. cbn [fst snd] in H1, H2. subst w'.
    cbn [predict fst snd]. apply wrap_z2; auto. intros. now apply coin_predict_body_z2.
  - destruct r as ((w & k) & ch), r' as ((w' & k') & ch'). destruct H as (H1 & H2 & H3). cbn [fst snd] in H1, H2, H3.
    inversion H1; subst. cbn [predict]. apply wrap_z2; auto. intros. apply kind_predict_z2; auto.
Qed.
Lemma learn_z2 : forall n r r' f g lb d mo, rrelz n r r' -> zfts f g ->
  orel (prelz (rrelz n)) (learn false n r f lb d mo) (learn false n r' g lb d mo).
Proof.
  induction n as [|n IH]; intros r r' f g lb d mo H Q.
  - destruct r as (w & c), r' as (w' & c'). destruct H as [H1 H2]. cbn [fst snd] in H1, H2. subst w'.
    cbn [learn]. apply wrap_z2; auto. intros. eapply orel_bind; [apply coin_learn_body_z2; eassumption|].
    pr. constructor. split; [split; cbn [fst snd]; auto|split; [assumption|reflexivity]].
  - destruct r as ((w & k) & ch), r' as ((w' & k') & ch'). destruct H as (H1 & H2 & H3). cbn [fst snd] in H1, H2, H3.
    inversion H1; subst. cbn [learn]. apply wrap_z2; auto. intros f1 g1 e1 Q1.
    eapply orel_bind; [apply (kind_learn_z2 _ _ (rrelz n)); [exact H2|intros; now apply IH|exact H3|exact Q1]|].
    pr. destruct x as (k1 & c1), y as (k2 & c2). destruct E as (E1 & E2 & E3). cbn [fst snd] in E1, E2, E3. subst.
    constructor. split; [split; [reflexivity|split; cbn [fst snd]; auto]|split; [assumption|reflexivity]].
Qed.
Lemma ptl_z2 : forall n r r' f g lb d mo, rrelz n r r' -> zfts f g ->
  orel (prelz (qrelz (rrelz n))) (predict_then_learn false n r f lb d mo) (predict_then_learn false n r' g lb d mo).
Proof.
  induction n as [|n IH]; intros r r' f g lb d mo H Q.
  - destruct r as (w & c), r' as (w' & c'). destruct H as [H1 H2]. cbn [fst snd] in H1, H2. subst w'.
    cbn [predict_then_learn]. apply wrap_z2; auto. intros f1 g1 e1 Q1. eapply orel_bind; [apply (default_ptl_z2 _ _ C); [exact Q1| |]|].
    + intros. now apply coin_predict_body_z2.
    + intros. now apply coin_learn_body_z2.
    + pr. destruct x as (k1 & c1), y as (k2 & c2). destruct E as [Q2 Q3]. cbn [fst snd] in Q2, Q3. subst.
      constructor. split; [split; [reflexivity|split; cbn [fst snd]; auto]|split; [assumption|reflexivity]].
  - destruct r as ((w & k) & ch), r' as ((w' & k') & ch'). destruct H as (H1 & H2 & H3). cbn [fst snd] in H1, H2, H3.
    inversion H1; subst. cbn [predict_then_learn]. apply wrap_z2; auto. intros f1 g1 e1 Q1.
    eapply orel_bind; [apply (kind_ptl_z2 _ _ (rrelz n)); [exact H2|intros; now apply predict_z2|intros; now apply learn_z2|intros; now apply IH|exact H3|exact Q1]|].
    pr. destruct x as (p1 & (k1 & c1)), y as (p2 & (k2 & c2)). destruct E as (E1 & E2 & E3 & E4). cbn [fst snd] in E1, E2, E3, E4. subst.
    constructor. split; [split; [reflexivity|split; [reflexivity|split; [exact E3|exact E4]]]|split; [assumption|reflexivity]].
Qed.
Lemma free_rrelz : forall n (r : red O n), elem_free n r -> C (bottom n r) (bottom n r) -> rrelz n r r.
Proof.
  induction n as [|n IH]; intros r E K.
  - split; auto.
  - destruct r as ((w & k) & ch). destruct E as (E1 & E2). cbn [fst snd bottom] in *. split; [reflexivity|split; [exact E1|now apply IH]].
Qed.
End Coins.
End Two.
