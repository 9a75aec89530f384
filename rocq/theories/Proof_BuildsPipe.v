(** C95: debug builds and release builds, training with several threads. *)
From Coq Require Import List NArith Bool Lia.
From Verif Require Import Base FloatOps Model_Hash Model_Features Model_Types Model_Stack Model_Text Model_Metrics Model_Train Model_Pipeline
  Spec_Builds Proof_Builds Proof_BuildsData.
Import ListNotations.

Section BuildsPipe.
Context (C Obj T S : Type) (fresh : Obj) (need : C -> nat) (parse parse' : list Obj -> C -> out T) (proc proc' : S -> T -> out (S * list Obj))
  (q : nat) (rd_ok : bool).
Hypothesis Pa : forall objs c, agree (parse objs c) (parse' objs c).
Hypothesis Pr : forall s t, agree (proc s t) (proc' s t).

Definition alive (p : pipe C Obj T S) : Prop := (forall i, ~ In (PDead i) (pi_par p)) /\ pi_learner p <> LDead.

Lemma in_upd_dead : forall (ps : list (pphase C Obj)) k x y i, nth_error ps k = Some x -> x <> PDead i -> In (PDead i) ps -> In (PDead i) (upd k y ps).
Proof.
  induction ps as [|a ps IH]; intros [|k] x y i E X I; cbn in *; try discriminate.
  - injection E as ->. destruct I as [-> | I]; [congruence|]. right. exact I.
  - destruct I as [-> | I]; [left; reflexivity|]. right. eapply IH; eauto.
Qed.
Lemma in_upd_self : forall (ps : list (pphase C Obj)) k x y, nth_error ps k = Some x -> In y (upd k y ps).
Proof. induction ps as [|a ps IH]; intros [|k] x y E; cbn in *; try discriminate; [left; reflexivity|right; eapply IH; eauto]. Qed.

Lemma step_agree : forall p p', step fresh need parse proc q rd_ok p p' -> alive p' -> alive p /\ step fresh need parse' proc' q rd_ok p p'.
Proof.
  intros p p' Hs [A1 A2]. destruct Hs; cbn [pi_par pi_learner] in *.
  all: try (split; [split; cbn [pi_par pi_learner]; [assumption|first [assumption|discriminate]]|]; econstructor; solve [eauto]).
  all: try (exfalso; solve [apply A2; reflexivity | eapply A1; eapply in_upd_self; eauto]).
  all: try (split; [split; cbn [pi_par pi_learner]; [intros j Ij; apply (A1 j); eapply in_upd_dead; eauto; discriminate|first [assumption|discriminate]]|]).
  all: try (econstructor; solve [eauto]).
  - match goal with K : parse ?a ?b = _ |- _ => pose proof (Pa a b) as Q; rewrite K in Q end.
    eapply s_set; eauto. destruct x; cbn [agree] in Q; [exact Q|exact Q|discriminate].
  - split; [split; cbn [pi_par pi_learner]; [assumption|discriminate]|]. apply s_proc.
    match goal with K : proc ?a ?b = _ |- _ => pose proof (Pr a b) as Q; rewrite K in Q; exact Q end.
Qed.
Lemma steps_agree : forall p p', steps fresh need parse proc q rd_ok p p' -> alive p' -> steps fresh need parse' proc' q rd_ok p p'.
Proof.
  intros p p' R. induction R as [p|p p' p'' R IH Hs]; intros A; [constructor|].
  destruct (step_agree _ _ Hs A) as [A' Hs']. econstructor; eauto.
Qed.
End BuildsPipe.

Lemma ag_proc : forall (O : FOps) md n (st : tstate O n) x, agree (learner_proc true md n st x) (learner_proc false md n st x).
Proof. intros. unfold learner_proc. apply agree_bind; [apply ag_process|]. intros. reflexivity. Qed.
Lemma run_agree : forall (O : FOps) md (ps ps' : parser O) need n q rd_ok k pool st chunks p,
  (forall ds s, agree (ps ds s) (ps' ds s)) ->
  train_run true md ps need n q rd_ok k pool st chunks p -> (forall i, ~ In (PDead i) (pi_par p)) -> pi_learner p <> LDead ->
  train_run false md ps' need n q rd_ok k pool st chunks p.
Proof.
  intros O md ps ps' need n q rd_ok k pool st chunks p Q R A1 A2. unfold train_run in *.
  eapply steps_agree; [exact Q| |exact R|split; assumption]. intros. apply ag_proc.
Qed.
From Verif Require Import Model_JsonTrain Model_Json Model_Command.
Lemma threads_main : forall (O : FOps) H pf rd al (fmt : format) gc n (r : red O n) pn pn' md q rd_ok k pool (st : tstate O n) chunks p,
  get_parser H pf rd al true fmt gc r = Ok pn -> get_parser H pf rd al false fmt gc r = Ok pn' ->
  train_run true md (fst pn) (snd pn) n q rd_ok k pool st chunks p ->
  (forall i, ~ In (PDead i) (pi_par p)) -> pi_learner p <> LDead ->
  train_run false md (fst pn') (snd pn') n q rd_ok k pool st chunks p.
Proof.
  intros O H pf rd al fmt gc n r pn pn' md q rd_ok k pool st chunks p G G' R A1 A2. unfold get_parser in *.
  destruct fmt; [|destruct (ds_create r); try discriminate G; cbn [bind] in *|]; injection G as <-; injection G' as <-; cbn [fst snd] in *;
    (eapply run_agree; [|exact R|exact A1|exact A2]); intros ds s; [apply ag_chunk|apply ag_dschunk|apply ag_jexample].
Qed.
