(** What holds for release builds also holds for debug builds that do not panic. *)
From Coq Require Import List NArith ZArith Bool Lia Reals Permutation.
From Verif Require Import Base FloatOps FloatR Model_Hash Model_Features Model_Interactions Model_Types Model_Coin Model_Stack Model_Factory
  Spec_Features Spec_Stack Spec_Total Spec_Reductions Spec_Values Spec_Save Spec_Empty Spec_Delegate Spec_Shuffle Spec_Units Spec_Builds Spec_DebugToo
  Proof_StackProps Proof_EmptyProps Proof_Shuffle Proof_Units Proof_Retell Proof_Builds Proof_Merge.
Import ListNotations.

Lemma calm_cons : forall (O : FOps) (a : answer O) l, calm (a :: l) -> calm l.
Proof. intros O a l C p I. apply (C p). now right. Qed.
Lemma calm_answers : forall (O : FOps) n cs (r : red O n), calm (answers true r cs) -> answers false r cs = answers true r cs.
Proof.
  intros O n cs. induction cs as [|[f|f lb|f lb|f] cs IH]; intros r C; cbn [answers] in *; [reflexivity|..].
  - pose proof (ag_wpredict _ r f) as A. destruct (ws_predict true r f) as [(p & f')|e|p]; cbn [agree] in A; [rewrite A|now rewrite A|exfalso; apply (C p); now left].
    rewrite IH by (eapply calm_cons; exact C). reflexivity.
  - pose proof (ag_wlearn _ r f lb) as A. destruct (ws_learn true r f lb) as [(r' & f')|e|p]; cbn [agree] in A; [rewrite A|now rewrite A|exfalso; apply (C p); now left].
    rewrite IH by (eapply calm_cons; exact C). reflexivity.
  - pose proof (ag_wptl _ r f lb) as A. destruct (ws_ptl true r f lb) as [((p & r') & f')|e|p]; cbn [agree] in A; [rewrite A|now rewrite A|exfalso; apply (C p); now left].
    rewrite IH by (eapply calm_cons; exact C). reflexivity.
  - pose proof (ag_sens _ r f) as A. destruct (sensitivity true n r f) as [x|e|p]; cbn [agree] in A; [rewrite A|now rewrite A|exfalso; apply (C p); now left].
    rewrite IH by (eapply calm_cons; exact C). reflexivity.
Qed.
Section Ag.
Context {O : FOps}.
Lemma rel_new : forall H gc (c : rcfg O) R0, ws_new H true gc c = Ok R0 -> ws_new H false gc c = Ok R0.
Proof. intros H gc c R0 E. pose proof (ag_wnew H gc c) as A. rewrite E in A. exact A. Qed.
Lemma rel_predict : forall n (r : red O n) f u, ws_predict true r f = Ok u -> ws_predict false r f = Ok u.
Proof. intros n r f u E. pose proof (ag_wpredict _ r f) as A. rewrite E in A. exact A. Qed.
Lemma rel_learn : forall n (r : red O n) f lb u, ws_learn true r f lb = Ok u -> ws_learn false r f lb = Ok u.
Proof. intros n r f lb u E. pose proof (ag_wlearn _ r f lb) as A. rewrite E in A. exact A. Qed.
Lemma rel_ptl : forall n (r : red O n) f lb u, ws_ptl true r f lb = Ok u -> ws_ptl false r f lb = Ok u.
Proof. intros n r f lb u E. pose proof (ag_wptl _ r f lb) as A. rewrite E in A. exact A. Qed.
Lemma rel_all : forall n h (r r' : red O n), learn_all true r h = Ok r' -> learn_all false r h = Ok r'.
Proof.
  intros n h. induction h as [|(f & lb) h IH]; intros r r' E; cbn [learn_all] in *; [exact E|].
  destruct (ws_learn true r f lb) as [x|?|?] eqn:L; cbn [bind] in E; try discriminate. rewrite (rel_learn _ _ _ _ _ L). cbn [bind]. auto.
Qed.
Lemma rel_now : forall n h (r r' : red O n), now true r h = Ok r' -> now false r h = Ok r'.
Proof.
  intros n h. unfold now. induction h as [|(f & lb) h IH]; intros r r' E; cbn [foldm fst snd] in *; [exact E|].
  destruct (ws_learn true r f lb) as [x|?|?] eqn:L; cbn [bind] in E; try discriminate. rewrite (rel_learn _ _ _ _ _ L). cbn [bind]. auto.
Qed.
End Ag.

Lemma debug_order : forall H gc (NR : no_repeat H gc) (c : rcfg RF) R0 r f g, ws_new H true gc c = Ok R0 -> reach true (projT2 R0) r ->
  elem_free (projT1 R0) (projT2 R0) -> sound_fts f -> sound_fts g -> reordered_fts f g ->
  (forall p q f' g', ws_predict true r f = Ok (p, f') -> ws_predict true r g = Ok (q, g') -> p = q) /\
  (no_clash_fts H gc f -> forall lb s t f' g', ws_learn true r f lb = Ok (s, f') -> ws_learn true r g lb = Ok (t, g') -> s = t).
Proof.
  intros H gc NR c R0 r f g E Q EF Sf Sg P. apply rel_new in E. apply debug_reach in Q. split.
  - intros p q f' g' A B. apply rel_predict in A, B. destruct (reordered_predict H gc NR c R0 r f g p f' E Q EF Sf Sg P A) as (g2 & C). rewrite B in C. congruence.
  - intros NC lb s t f' g' A B. apply rel_learn in A, B. destruct (reordered_learn H gc NR c R0 r f g lb s f' E Q EF Sf Sg P NC A) as (g2 & C). rewrite B in C. congruence.
Qed.
Lemma debug_order_training : forall H gc (NR : no_repeat H gc) (c : rcfg RF) R0 exs exs' r s, ws_new H true gc c = Ok R0 ->
  elem_free (projT1 R0) (projT2 R0) -> Forall2 (reordered_example H gc) exs exs' ->
  learn_all true (projT2 R0) exs = Ok r -> learn_all true (projT2 R0) exs' = Ok s -> r = s.
Proof.
  intros H gc NR c R0 exs exs' r s E EF P A B. apply rel_new in E. apply rel_all in A, B.
  pose proof (reordered_training H gc NR c R0 exs exs' r E EF P A) as C. rewrite B in C. congruence.
Qed.
Lemma debug_empty : forall (O : FOps) n (r : red O n) (f g : features O) (lb : label O),
  elem_free n r -> sound_fts f -> sound_fts g -> same_contents f g ->
  (forall p q f' g', ws_predict true r f = Ok (p, f') -> ws_predict true r g = Ok (q, g') -> p = q) /\
  (forall s t f' g', ws_learn true r f lb = Ok (s, f') -> ws_learn true r g lb = Ok (t, g') -> s = t) /\
  (forall p q s t f' g', ws_ptl true r f lb = Ok (p, s, f') -> ws_ptl true r g lb = Ok (q, t, g') -> p = q /\ s = t).
Proof.
  intros O n r f g lb EF Sf Sg P. destruct (empty_namespaces n r f g lb EF Sf Sg P) as (X & Y & Z). split; [|split].
  - intros p q f' g' A B. apply rel_predict in A, B. rewrite A, B in X. inversion X as [? ? (K & _)| |]. exact K.
  - intros s t f' g' A B. apply rel_learn in A, B. rewrite A, B in Y. inversion Y as [? ? (K & _)| |]. exact K.
  - intros p q s t f' g' A B. apply rel_ptl in A, B. rewrite A, B in Z. inversion Z as [? ? (K & _)| |]. cbn in K. inversion K. auto.
Qed.
Lemma debug_empty_training : forall (O : FOps) n (r s t : red O n) (exs exs' : list (features O * label O)),
  elem_free n r -> Forall2 same_example exs exs' -> now true r exs = Ok s -> now true r exs' = Ok t -> s = t.
Proof. intros O n r s t exs exs' EF P A B. apply rel_now in A, B. rewrite (empty_training n r exs exs' EF P), B in A. congruence. Qed.
Lemma debug_units : forall (u : N -> R) (U : forall i, u i <> 0%R) H gc (c : rcfg RF) R0 cs,
  (gc_bits gc < 32)%N -> gc_inter gc = [] -> (gc_const gc = true -> u (2 ^ gc_bits gc / 2)%N = 1%R) ->
  ws_new H true gc c = Ok R0 -> elem_free (projT1 R0) (projT2 R0) -> Forall paired_call cs ->
  calm (answers true (projT2 R0) cs) -> calm (answers true (projT2 R0) (map (retell_call (fun i => i) (fun i x => (u i * x)%R)) cs)) ->
  answers true (projT2 R0) (map (retell_call (fun i => i) (fun i x => (u i * x)%R)) cs) =
  map (retell_answer (fun i => i) (fun i x => (u i * x)%R)) (answers true (projT2 R0) cs).
Proof.
  intros u U H gc c R0 cs Hb GI GC E EF P A B. apply rel_new in E. rewrite <- (calm_answers _ _ _ _ A), <- (calm_answers _ _ _ _ B).
  exact (units_answers u U H gc c R0 cs Hb GI GC E EF P).
Qed.
Lemma debug_indices : forall (O : FOps) H gc ix (c : rcfg O) R0 cs,
  (gc_bits gc < 32)%N -> gc_inter gc = [] -> renaming gc ix ->
  ws_new H true gc c = Ok R0 -> elem_free (projT1 R0) (projT2 R0) -> Forall paired_any cs ->
  calm (answers true (projT2 R0) cs) -> calm (answers true (projT2 R0) (map (retell_call ix (fun _ x => x)) cs)) ->
  answers true (projT2 R0) (map (retell_call ix (fun _ x => x)) cs) =
  map (retell_answer ix (fun _ x => x)) (answers true (projT2 R0) cs).
Proof.
  intros O H gc ix c R0 cs Hb GI RN E EF P A B. apply rel_new in E. rewrite <- (calm_answers _ _ _ _ A), <- (calm_answers _ _ _ _ B).
  exact (renamed_answers H gc ix c R0 cs Hb GI RN E EF P).
Qed.
