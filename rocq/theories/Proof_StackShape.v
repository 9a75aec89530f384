(** What learning never changes in a stack: the kinds of reductions and their
    settings, the wrapper fields, and the settings and table sizes of the regressor. *)
From Coq Require Import List NArith ZArith Bool Lia.
From Verif Require Import Base FloatOps Model_Hash Model_Features Model_Weights Model_Loss Model_Types Model_Explore
  Model_Coin Model_Stack Proof_Features Proof_StackRestore.
Import ListNotations.

Section Shape.
Context {O : FOps}.

Definition kshape (k k' : kind O) : Prop :=
  match k, k' with
  | KBinary, KBinary => True
  | KCbAdf t _ _, KCbAdf t' _ _ => t = t'
  | KGreedy e, KGreedy e' => e = e'
  | KSoftmax u l c, KSoftmax u' l' c' => u = u' /\ l = l' /\ c = c'
  | KSquareCb u g x _, KSquareCb u' g' x' _ => u = u' /\ g = g' /\ x = x'
  | KElem a b c d, KElem a' b' c' d' => a = a' /\ b = b' /\ c = c' /\ d = d'
  | KDebug, KDebug => True
  | _, _ => False
  end.
Definition wshape (w w' : dweights O) : Prop :=
  dw_fsize w = dw_fsize w' /\ dw_msize w = dw_msize w' /\ dw_ssize w = dw_ssize w' /\
  dw_mshift w = dw_mshift w' /\ dw_sshift w = dw_sshift w'.
Definition cshape (c c' : coin O) : Prop :=
  wshape (co_w c) (co_w c') /\ co_cfg c = co_cfg c' /\ length (co_states c) = length (co_states c') /\
  co_loss c = co_loss c' /\ co_pairs c = co_pairs c' /\ co_triples c = co_triples c' /\
  co_bits c = co_bits c' /\ co_const c = co_const c'.
Fixpoint shape (n : nat) : red O n -> red O n -> Prop :=
  match n with
  | 0%nat => fun r r' => fst r = fst r' /\ cshape (snd r) (snd r')
  | S m => fun r r' => fst (fst r) = fst (fst r') /\ kshape (snd (fst r)) (snd (fst r')) /\ shape m (snd r) (snd r')
  end.

Lemma kshape_refl : forall k, kshape k k.
Proof. destruct k; simpl; auto. Qed.
Lemma kshape_trans : forall a b c, kshape a b -> kshape b c -> kshape a c.
Proof. destruct a, b, c; simpl; intuition congruence. Qed.
Lemma wshape_refl : forall w, wshape w w.
Proof. unfold wshape; tauto. Qed.
Lemma wshape_trans : forall a b c, wshape a b -> wshape b c -> wshape a c.
Proof. unfold wshape; intuition congruence. Qed.
Lemma cshape_refl : forall c, cshape c c.
Proof. unfold cshape; intuition auto using wshape_refl. Qed.
Lemma cshape_trans : forall a b c, cshape a b -> cshape b c -> cshape a c.
Proof. unfold cshape; intros a b c H K. split; [eapply wshape_trans; [apply H|apply K]|]. intuition congruence. Qed.
Lemma shape_refl : forall n r, shape n r r.
Proof. induction n; simpl; intros r; auto using cshape_refl, kshape_refl. Qed.
Lemma shape_trans : forall n a b c, shape n a b -> shape n b c -> shape n a c.
Proof.
  induction n; simpl; intros a b c H K.
  - split; [destruct H, K; congruence|]. eapply cshape_trans; [apply H|apply K].
  - split; [destruct H, K; congruence|]. split; [eapply kshape_trans; [apply H|apply K]|].
    eapply IHn; [apply H|apply K].
Qed.

Lemma dw_state_upd_shape : forall dbg (w : dweights O) fi mi g w', dw_state_upd dbg w fi mi g = Ok w' -> wshape w w'.
Proof.
  intros dbg w fi mi g w' H. unfold dw_state_upd in H. binv H. binv H. binv H. inversion H; subst.
  unfold wshape; simpl; tauto.
Qed.

Lemma coin_learn_shape : forall dbg c f v w c', coin_learn dbg c f v w = Ok c' -> cshape c c'.
Proof.
  intros dbg c f v w c' H. unfold coin_learn in H. binv H. destruct v0 as (p & c1).
  unfold coin_betting_predict in B. binv B. binv B. binv B. binv B. inversion B; subst. clear B.
  unfold coin_update in H. binv H. binv H. inversion H; subst. clear H.
  assert (Q : wshape (co_w (coin_range c v)) v4).
  { simpl in B4 |- *. refine (foldm_inv _ _ (wshape (co_w c)) _ _ _ _ _ _ B4); [apply wshape_refl|].
    intros a b b' _ Hb E. eapply wshape_trans; [exact Hb|]. eapply dw_state_upd_shape; eauto. }
  unfold cshape; simpl. intuition auto. destruct (co_states c); reflexivity.
Qed.

Lemma wrap_ok2 : forall X dbg nmb mo f d (body : features O -> N -> out (pres O X)) x f' d',
  wrap dbg nmb mo f d body = Ok (x, f', d') -> exists d1 d2, body f d1 = Ok (x, f', d2).
Proof. exact (@wrap_ok O). Qed.

Lemma elem_frame_inv : forall X dbg one two keep nb (call : features O -> out (pres O X)) f x f' d',
  elem_frame dbg one two keep nb call f = Ok (x, f', d') -> exists g g', call g = Ok (x, g', d').
Proof.
  intros X dbg one two keep nb call f x f' d' H. unfold elem_frame in H. binv H. binv H. destruct keep.
  - binv H. destruct v1 as ((y & g) & e). inversion H; subst. eauto.
  - destruct (sf_remove_ns one _). binv H. destruct (sf_remove_ns two _). binv H. binv H.
    destruct v3 as ((y & g) & e). inversion H; subst. eauto.
Qed.

Lemma cb_ips_loop_inv : forall X (P : X -> X -> Prop) dbg learn act cost prob (s : option (sfeats O)) x i (ch : X) d ch' acts d',
  (forall a, P a a) -> (forall a b c, P a b -> P b c -> P a c) ->
  (forall ch f lb d mo x f' d', learn ch f lb d mo = Ok (x, f', d') -> P ch x) ->
  cb_ips_loop dbg learn act cost prob s x i ch d = Ok (ch', acts, d') -> P ch ch'.
Proof.
  intros X P dbg learn act cost prob s x i ch d ch' acts d' HR HT HC. revert i ch d ch' acts d'.
  induction x as [|a x IH]; intros i ch d ch' acts d' H; simpl in H.
  - inversion H; subst. auto.
  - binv H. binv H. binv H. destruct v1 as ((p & f') & d1). binv H.
    binv H. destruct v2 as ((scs & acs) & d2). inversion H; subst. clear H.
    eapply HT; [eapply HC; exact B1|]. eapply IH; eauto.
Qed.

Lemma kind_learn_shape : forall X (P : X -> X -> Prop) dbg k le ch f lb d mo k' ch' f' d',
  (forall a, P a a) -> (forall a b c, P a b -> P b c -> P a c) ->
  (forall ch f lb d mo x f' d', le ch f lb d mo = Ok (x, f', d') -> P ch x) ->
  kind_learn dbg k le ch f lb d mo = Ok ((k', ch'), f', d') -> kshape k k' /\ P ch ch'.
Proof.
  intros X P dbg k le ch f lb d mo k' ch' f' d' HR HT IH H.
  destruct k; cbn [kind_learn] in H.
  + binv H. binv H. destruct v0 as ((c' & g) & e). inversion H; subst. split; [exact I|eapply IH; eauto].
  + binv H. binv H. destruct v0 as ((act & cost) & prob). destruct v as (s & x). destruct ty.
    * binv H. destruct v as ((c' & acts) & e). inversion H; subst. split; [reflexivity|].
      eapply cb_ips_loop_inv; eauto.
    * binv H. binv H. destruct s as [sh|]; [|discriminate]. binv H. binv H. binv H.
      destruct v3 as ((c' & g) & e). binv H. inversion H; subst. split; [reflexivity|eapply IH; eauto].
  + binv H. destruct v as ((c' & g) & e). inversion H; subst. split; [apply kshape_refl|eapply IH; eauto].
  + binv H. destruct v as ((c' & g) & e). inversion H; subst. split; [apply kshape_refl|eapply IH; eauto].
  + binv H. destruct v as ((act & cost) & prob). binv H. destruct v as ((c' & g) & e). binv H.
    inversion H; subst. split; [simpl; auto|eapply IH; eauto].
  + binv H. destruct v as ((c' & g) & e). inversion H; subst. split; [apply kshape_refl|].
    apply elem_frame_inv in B. destruct B as (g0 & g1 & B). eapply IH; eauto.
  + binv H. destruct v as ((c' & g) & e). inversion H; subst. split; [exact I|eapply IH; eauto].
Qed.

Lemma learn_shape : forall dbg n (r : red O n) f lb d mo r' f' d',
  learn dbg n r f lb d mo = Ok (r', f', d') -> shape n r r'.
Proof.
  induction n as [|n IH]; intros r f lb d mo r' f' d' H.
  - destruct r as (w & c). cbn [learn] in H. apply wrap_ok in H. destruct H as (d1 & d2 & H).
    binv H. destruct v as ((c' & g) & e). inversion H; subst. unfold coin_learn_body in B. binv B. binv B. binv B.
    inversion B; subst. split; [reflexivity|]. simpl. eapply coin_learn_shape; eauto.
  - destruct r as ((w & k) & ch). cbn [learn] in H. apply wrap_ok in H. destruct H as (d1 & d2 & H).
    binv H. destruct v as (((k' & ch') & g) & e). inversion H; subst. clear H.
    split; [reflexivity|]. cbn [fst snd].
    eapply kind_learn_shape; [apply shape_refl|apply shape_trans| |exact B]. intros; eapply IH; eauto.
Qed.

Lemma default_ptl_inv : forall X (p : features O -> N -> out (pres O (prediction O)))
    (l : features O -> N -> out (pres O X)) f d q x f' d',
  default_ptl p l f d = Ok ((q, x), f', d') -> exists g e, l g e = Ok (x, f', d').
Proof.
  intros X p l f d q x f' d' H. unfold default_ptl in H. binv H. destruct v as ((p0 & f1) & d1). binv H.
  destruct v as ((x0 & f2) & d2). destruct (d2 =? d)%N; inversion H; subst. eauto.
Qed.

Lemma ptl_shape : forall dbg n (r : red O n) f lb d mo p r' f' d',
  predict_then_learn dbg n r f lb d mo = Ok ((p, r'), f', d') -> shape n r r'.
Proof.
  induction n as [|n IH]; intros r f lb d mo p r' f' d' H.
  - destruct r as (w & c). cbn [predict_then_learn] in H. apply wrap_ok in H. destruct H as (d1 & d2 & H).
    binv H. destruct v as (((p' & c') & g) & e). inversion H; subst. apply default_ptl_inv in B. destruct B as (g & e & B).
    unfold coin_learn_body in B. binv B. binv B. binv B.
    inversion B; subst. split; [reflexivity|]. simpl. eapply coin_learn_shape; eauto.
  - destruct r as ((w & k) & ch). cbn [predict_then_learn] in H. apply wrap_ok in H. destruct H as (d1 & d2 & H).
    binv H. destruct v as (((p' & (k' & ch')) & g) & e). inversion H; subst. clear H.
    split; [reflexivity|]. cbn [fst snd].
    assert (DF : forall l, default_ptl (fun f d => kind_predict dbg k (predict dbg n ch) f d mo) l f d1 = Ok (p, (k', ch'), f', d2) ->
       l = (fun f d => kind_learn dbg k (learn dbg n) ch f lb d mo) -> kshape k k' /\ shape n ch ch').
    { intros l E ->. apply default_ptl_inv in E. destruct E as (g & e & E).
      eapply kind_learn_shape; [apply shape_refl|apply shape_trans| |exact E]. intros; eapply learn_shape; eauto. }
    destruct k; cbn [kind_ptl] in B; try (eapply DF; [exact B|reflexivity]).
    + binv B. binv B. destruct v0 as (((p0 & c0) & g) & e). binv B. inversion B; subst. split; [exact I|eapply IH; eauto].
    + binv B. destruct v as (((p0 & c0) & g) & e). inversion B; subst. apply elem_frame_inv in B0.
      destruct B0 as (g0 & g1 & B0). split; [apply kshape_refl|eapply IH; eauto].
    + binv B. destruct v as (((p0 & c0) & g) & e). inversion B; subst. split; [exact I|eapply IH; eauto].
Qed.

Lemma shape_elems_ok : forall n (r r' : red O n), shape n r r' -> elems_ok n r -> elems_ok n r'.
Proof.
  induction n as [|n IH]; intros r r' H K; [exact I|]. destruct H as (_ & H1 & H2). destruct K as (K1 & K2).
  split; [|eapply IH; eauto]. destruct (snd (fst r)), (snd (fst r')); simpl in *; try tauto.
  destruct H1 as (-> & -> & _). exact K1.
Qed.

Lemma shape_types : forall n (r r' : red O n), shape n r r' -> red_w r = red_w r'.
Proof. destruct n; simpl; intros r r' H; apply H. Qed.

End Shape.
