(** C71. *)
From Coq Require Import List NArith ZArith Bool Lia.
From Verif Require Import Base FloatOps FloatB32 Model_Hash Model_Features Model_Weights Model_Loss Model_Types Model_Interactions Model_Explore
  Model_Coin Model_Stack Model_Factory Spec_Reductions Spec_Stack Spec_Delegate Spec_Built Proof_StackRestore Proof_StackShape Proof_StackPtl Proof_StackProps
  Proof_Reductions Proof_Delegate.
Import ListNotations.

Section Built.
Context {O : FOps}.

Lemma square_cases : forall H dbg gc nma (ue gs ge : O) c R, create H dbg gc nma (CSquareCb ue gs ge c) = Ok R ->
  (let* ch := create H dbg gc nma c in add_level nma td_explore (KSquareCb ue gs ge 0) ch) = Ok R.
Proof. intros H dbg gc nma ue gs ge c R E. cbn [create] in E. destruct c; auto. destruct ty; auto. discriminate. Qed.

Lemma create_follows : forall H dbg gc nma (c : rcfg O) R, create H dbg gc nma c = Ok R -> follows H gc c (projT1 R) (projT2 R).
Proof.
  intros H dbg gc nma. induction c; intros R E; try (apply square_cases in E); try (cbn [create] in E); try discriminate.
  - binv E. inversion E; subst. cbn [projT1 projT2]. unfold coin_new in B. binv B. destruct (match cc_loss cfg with LossSquared => _ | _ => _ end).
    binv B. binv B. inversion B; subst. constructor; reflexivity.
  - binv E. apply add_level_ok in E. destruct E as (-> & _). cbn [projT1 projT2]. constructor. auto.
  - binv E. apply add_level_ok in E. destruct E as (-> & _). cbn [projT1 projT2]. constructor. auto.
  - binv E. apply add_level_ok in E. destruct E as (-> & _). cbn [projT1 projT2]. constructor. auto.
  - binv E. apply add_level_ok in E. destruct E as (-> & _). cbn [projT1 projT2]. constructor. auto.
  - binv E. apply add_level_ok in E. destruct E as (-> & _). cbn [projT1 projT2]. constructor. auto.
  - binv E. apply add_level_ok in E. destruct E as (-> & _). cbn [projT1 projT2]. apply fo_elem. auto.
  - binv E. apply add_level_ok in E. destruct E as (-> & _). cbn [projT1 projT2]. constructor. auto.
Qed.

Lemma shape_follows : forall H gc c n (r : red O n), follows H gc c n r -> forall r', shape n r r' -> follows H gc c n r'.
Proof.
  induction 1 as [cfg w c E1 E2 E3|c n w ch F IH|ty c n w x y ch F IH|eps c n w ch F IH|ue la c n w x ch F IH|ue gs ge c n w x ch F IH|one two keep c n w ch F IH|c n w ch F IH]; intros r' Sh.
  1:{ destruct r' as (w' & c'). destruct Sh as (_ & _ & Q1 & _ & _ & _ & _ & Q2 & Q3). cbn [fst snd] in *. constructor; congruence. }
  all: destruct r' as ((w' & k') & ch'); cbn [shape fst snd] in Sh; destruct Sh as (_ & K & Sh); specialize (IH _ Sh);
    destruct k'; cbn [kshape] in K; try contradiction.
  - constructor; auto.
  - subst. constructor; auto.
  - subst. constructor; auto.
  - destruct K as (<- & <- & _). constructor; auto.
  - destruct K as (<- & <- & <-). constructor; auto.
  - destruct K as (<- & <- & <- & <-). constructor; auto.
  - constructor; auto.
Qed.

Lemma configured : forall H dbg gc (c : rcfg O) R r, ws_new H dbg gc c = Ok R -> reach dbg (projT2 R) r -> follows H gc c (projT1 R) r.
Proof.
  intros H dbg gc c R r E Q. eapply shape_follows; [eapply create_follows; exact E|]. eapply reach_shape; eauto.
Qed.

Lemma forall_repeat : forall A (x : A) n, Forall (eq x) (repeat x n).
Proof. induction n; simpl; constructor; auto. Qed.
Lemma dw_new_zero : forall dbg a b c w, dw_new O dbg a b c = Ok w -> Forall (eq f0) (dw_w w).
Proof.
  intros dbg a b c w E. unfold dw_new in E. binv E. binv E. binv E. destruct (64 <? _)%N; [discriminate|]. binv E. binv E. inversion E; subst.
  cbn [dw_w]. unfold vec_zeros in B3. destruct (_ <? _)%N; inversion B3; subst; apply forall_repeat.
Qed.
Lemma create_untrained : forall H dbg gc nma (c : rcfg O) R, create H dbg gc nma c = Ok R -> untrained (projT1 R) (projT2 R).
Proof.
  intros H dbg gc nma. induction c; intros R E; try (apply square_cases in E); try (cbn [create] in E); try discriminate.
  1:{ binv E. inversion E; subst. cbn [projT1 projT2 untrained snd]. unfold coin_new in B. binv B. destruct (match cc_loss cfg with LossSquared => _ | _ => _ end).
    binv B. binv B. inversion B; subst. cbn [co_w co_states co_avg]. split; [eapply dw_new_zero; eauto|]. split; [apply forall_repeat|reflexivity]. }
  all: binv E; apply add_level_ok in E; destruct E as (-> & _); cbn [projT1 projT2 untrained fst snd kind_new]; auto.
Qed.

Lemma new_untrained : forall H dbg gc (c : rcfg O) R, ws_new H dbg gc c = Ok R -> untrained (projT1 R) (projT2 R).
Proof. intros H dbg gc c R E. eapply create_untrained. exact E. Qed.

Lemma plain_learn_all : forall dbg n w (k : kind O) h (ch : red O n) r, plain_explorer k ->
  learn_all dbg ((w, k, ch) : red O (S n)) h = Ok r -> exists ch', r = (w, k, ch') /\ learn_all dbg ch h = Ok ch'.
Proof.
  intros dbg n w k h ch r P E. destruct (policy_irrelevant O dbg n w w k k h ch r P P E) as (ch' & A & B & _). eauto.
Qed.

Lemma lifelong : forall H dbg gc (c c' : rcfg O) R, explorer c c' -> ws_new H dbg gc c = Ok R ->
  exists R', ws_new H dbg gc c' = Ok R' /\
  forall h r f p f', (N.of_nat (length h) < u64_mod)%N -> learn_all dbg (projT2 R) h = Ok r -> ws_predict dbg r f = Ok (p, f') ->
  exists r' scores probs,
    learn_all dbg (projT2 R') (match c with CSquareCb _ _ _ _ => map (fun e => (fst e, sure (snd e))) h | _ => h end) = Ok r' /\
    ws_predict dbg r' f = Ok (PrScores scores, f') /\ p = PrProbs probs /\ policy dbg c (N.of_nat (length h)) scores = Ok probs.
Proof.
  intros H dbg gc c c' R X E. destruct c; cbn [explorer] in X; try contradiction; subst c'; unfold ws_new in *.
  3: apply square_cases in E.
  1,2: cbn [create] in E.
  all: binv E; apply add_level_ok in E; destruct E as (-> & _); eexists; split; [exact B|]; cbn [projT1 projT2];
    intros h r f p f' Lh Lr Pr.
  - destruct (plain_learn_all _ _ _ (KGreedy eps) _ _ _ Logic.I Lr) as (ch' & -> & Lc).
    destruct (explore_policy _ _ _ (KGreedy eps) _ _ _ _ Logic.I Pr) as (sc & pr & A & _ & _ & Ep & Q). exists ch', sc, pr. auto.
  - destruct (plain_learn_all _ _ _ (KSoftmax ueps lambda 0) _ _ _ Logic.I Lr) as (ch' & -> & Lc).
    destruct (explore_policy _ _ _ (KSoftmax ueps lambda 0) _ _ _ _ Logic.I Pr) as (sc & pr & A & _ & _ & Ep & Q). exists ch', sc, pr. auto.
  - destruct (square_gamma _ _ _ _ _ _ _ _ _ _ _ _ _ Lh Lr Pr) as (ch' & sc & pr & A & _ & Q1 & Q2 & Q3). exists ch', sc, pr. auto.
Qed.
End Built.
