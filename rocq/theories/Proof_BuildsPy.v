(** C95: debug builds and release builds, the Python module. *)
From Coq Require Import String List NArith ZArith Bool Lia.
From Verif Require Import Base FloatOps Model_Hash Model_Features Model_Types Model_Interactions Model_Weights Model_Loss Model_Explore Model_Coin
  Model_Stack Model_Factory Model_Text Model_Metrics Model_Json Model_Save Model_Train Model_Export Model_Python Spec_Builds Proof_Builds Proof_BuildsData.
Import ListNotations.

Section BuildsPy.
Context {O : FOps} (H : hasher) (pf : str -> option O) (rd : str -> option (json O)).
Definition not_panic (r : pyres O) : Prop := match r with RPanic _ => False | _ => True end.

Lemma ag_pyps : forall w pool fm ft lt seed nb s,
  agree (py_ps H true pf rd w pool fm ft lt seed nb s) (py_ps H false pf rd w pool fm ft lt seed nb s).
Proof.
  intros w pool [| |] ft lt seed nb s; unfold py_ps; [apply ag_chunk|apply ag_jexample|apply ag_dschunk].
Qed.
Lemma made_same : forall h ex (d r : out (gconfig * anyred O)) x y, agree d r -> py_made h ex d = (x, y) -> not_panic x -> py_made h ex r = (x, y).
Proof.
  intros h ex [[gc R]|e|p] r x y Q E K; cbn in *; [subst r; exact E| |]; injection E as <- <-; destruct K.
Qed.
Lemma pycall_same : forall w pool fresh h op x y,
  py_call H true fresh (py_ps H true pf rd w pool) (pw_ord w) h op = Some (x, y) -> not_panic x ->
  py_call H false fresh (py_ps H false pf rd w pool) (pw_ord w) h op = Some (x, y).
Proof.
  intros w pool fresh h op x y E K. destruct op; unfold py_call in *; try exact E.
  - injection E as E. f_equal. eapply made_same; [|exact E|exact K]. ag.
  - injection E as E. f_equal. eapply made_same; [|exact E|exact K]. apply ag_wimport.
  - destruct (py_get h w0) as [[]|]; try exact E.
    match type of E with context [ws_export true ?a ?b ?c ?d] =>
      pose proof (agree_unwrap _ _ _ (ag_wexport a b c d)) as Q; destruct (unwrap_res (ws_export true a b c d)); cbn [agree] in Q end.
    + rewrite Q. exact E.
    + rewrite Q. exact E.
    + injection E as <- <-. destruct K.
  - destruct (py_get h p) as [[]|]; try exact E.
    match type of E with context [py_ps H true pf rd w pool ?a ?b ?c ?d ?e ?f] =>
      pose proof (ag_pyps w pool a b c d e f) as Q; destruct (py_ps H true pf rd w pool a b c d e f); cbn [agree] in Q end.
    + rewrite Q. exact E.
    + rewrite Q. exact E.
    + injection E as <- <-. destruct K.
  - destruct (py_get h w0) as [[]|]; try exact E; destruct (py_get h f) as [[]|]; try exact E.
    match type of E with context [ws_predict true ?a ?b] => pose proof (ag_wpredict _ a b) as Q; destruct (ws_predict true a b); cbn [agree] in Q end.
    + rewrite Q. exact E.
    + rewrite Q. exact E.
    + injection E as <- <-. destruct K.
  - destruct (py_get h w0) as [[]|]; try exact E; destruct (py_get h f) as [[]|]; try exact E; destruct (py_get h l) as [[]|]; try exact E.
    match type of E with context [ws_ptl true ?a ?b ?c] => pose proof (ag_wptl _ a b c) as Q; destruct (ws_ptl true a b c); cbn [agree] in Q end.
    + rewrite Q. exact E.
    + rewrite Q. exact E.
    + injection E as <- <-. destruct K.
  - destruct (py_get h w0) as [[]|]; try exact E; destruct (py_get h f) as [[]|]; try exact E; destruct (py_get h l) as [[]|]; try exact E.
    match type of E with context [ws_learn true ?a ?b ?c] => pose proof (ag_wlearn _ a b c) as Q; destruct (ws_learn true a b c); cbn [agree] in Q end.
    + rewrite Q. exact E.
    + rewrite Q. exact E.
    + injection E as <- <-. destruct K.
Qed.
Lemma pycall_none : forall w pool fresh h op,
  py_call H true fresh (py_ps H true pf rd w pool) (pw_ord w) h op = None ->
  py_call H false fresh (py_ps H false pf rd w pool) (pw_ord w) h op = None.
Proof.
  intros w pool fresh h op E. destruct op; unfold py_call in *; try exact E; try discriminate E.
  all: repeat match type of E with match ?x with _ => _ end = _ => destruct x; try discriminate E; try exact E end.
Qed.
Lemma pool_same : forall w st op x y,
  py_call H true (fst (pool_get sf_new (py_pool st))) (py_ps H true pf rd w (py_pool st)) (pw_ord w) (py_heap st) op = Some (x, y) -> not_panic x ->
  py_pool_after H false pf rd w st op = py_pool_after H true pf rd w st op.
Proof.
  intros w st op x y E K. unfold py_pool_after. destruct op; try reflexivity. unfold py_call in E.
  destruct (py_get (py_heap st) p) as [[]|]; try reflexivity.
  match type of E with context [py_ps H true pf rd w ?pl ?a ?b ?c ?d ?e ?f] =>
    pose proof (ag_pyps w pl a b c d e f) as Q; destruct (py_ps H true pf rd w pl a b c d e f); cbn [agree] in Q end.
  - rewrite Q. reflexivity.
  - rewrite Q. reflexivity.
  - injection E as <- <-. destruct K.
Qed.
Lemma pyexec_same : forall w st op x y,
  py_exec H true pf rd w st op = Some (x, y) -> not_panic x -> py_exec H false pf rd w st op = Some (x, y).
Proof.
  intros w st op x y E K. unfold py_exec in *.
  destruct (py_call H true (fst (pool_get sf_new (py_pool st))) (py_ps H true pf rd w (py_pool st)) (pw_ord w) (py_heap st) op) as [[x' h]|] eqn:C;
    [|discriminate E].
  injection E as -> <-. rewrite (pycall_same _ _ _ _ _ _ _ C K), (pool_same _ _ _ _ _ C K). reflexivity.
Qed.
Lemma pyrun_same : forall ops st,
  (forall p, ~ In (RPanic p) (fst (py_run H true pf rd ops st))) -> py_run H false pf rd ops st = py_run H true pf rd ops st.
Proof.
  induction ops as [|[w op] ops IH]; intros st K; [reflexivity|]. cbn [py_run] in *.
  destruct (py_exec H true pf rd w st op) as [[x y]|] eqn:E.
  - assert (Kx : not_panic x).
    { destruct x; try exact Logic.I. destruct y; exfalso; eapply K; left; reflexivity. }
    rewrite (pyexec_same _ _ _ _ _ E Kx). destruct y as [st'|]; [|reflexivity]. cbv zeta. rewrite IH; [reflexivity|].
    intros p Q. apply (K p). cbv zeta. cbn [fst]. right. exact Q.
  - unfold py_exec in *.
    destruct (py_call H true (fst (pool_get sf_new (py_pool st))) (py_ps H true pf rd w (py_pool st)) (pw_ord w) (py_heap st) op) as [[x' h]|] eqn:C;
      [discriminate E|]. rewrite (pycall_none _ _ _ _ _ C). reflexivity.
Qed.
End BuildsPy.
