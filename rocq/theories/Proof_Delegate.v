(** What exploration layers hand on when learning. *)
From Coq Require Import List NArith ZArith Bool Lia PeanoNat.
From Verif Require Import Base FloatOps FloatB32 Model_Hash Model_Features Model_Types Model_Interactions Model_Weights Model_Loss Model_Explore
  Model_Coin Model_Stack Model_Factory Spec_Stack Spec_Reductions Spec_Delegate
  Proof_StackRestore Proof_StackShape Proof_StackPtl Proof_StackProps Proof_StackRel Proof_Reductions Proof_Debug.
Import ListNotations.
Open Scope N_scope.

Section D.
Context {O : FOps}.

(** a layer that calls learn of the child once, with the same features *)
Lemma layer_learn : forall dbg n w (k : kind O) (ch : red O n) f lb lb' (g : out (kind O)),
  (forall l : red O n -> features O -> label O -> N -> N -> out (pres O (red O n)), kind_learn dbg k l ch f lb 0 0 =
    let* r := l ch f lb' 0 0 in let '(ch', f', d') := r in let* k' := g in Ok ((k', ch'), f', d')) ->
  ws_learn dbg ((w, k, ch) : red O (S n)) f lb =
  let* x := ws_learn dbg ch f lb' in let* k' := g in Ok ((w, k', fst x) : red O (S n), snd x).
Proof.
  intros dbg n w k ch f lb lb' g E. unfold ws_learn. cbn [learn]. 
  destruct (learn_head dbg n ch lb') as (nmb & b & EH).
  unfold wrap at 1. assert (DI : depth_inc dbg 0 (w_below w) 0 = Ok 0).
  { unfold depth_inc, u8_mul. rewrite N.mul_0_r. reflexivity. }
  rewrite DI. cbn [bind]. rewrite E.
  destruct (learn dbg n ch f lb' 0 0) as [[[c f'] d']| |] eqn:L; cbn [bind]; auto.
  destruct g as [k'| |]; cbn [bind]; auto.
  assert (DD : depth_dec dbg d' (w_below w) 0 = Ok d').
  { unfold depth_dec, u8_mul. rewrite N.mul_0_r. cbn [bind]. unfold u8_sub.
    change (0 <? 256) with true. cbn [bind]. replace (0 <=? d') with true by (symmetry; apply N.leb_le; lia). now rewrite N.sub_0_r. }
  rewrite DD. cbn [bind].
  rewrite EH in L. apply wrap0_ok in L; [|reflexivity]. destruct L as (_ & L). now rewrite L.
Qed.

Lemma plain_learn : forall dbg n w (k : kind O) (ch : red O n) f lb, plain_explorer k ->
  ws_learn dbg ((w, k, ch) : red O (S n)) f lb =
  let* x := ws_learn dbg ch f lb in Ok ((w, k, fst x) : red O (S n), snd x).
Proof.
  intros dbg n w k ch f lb K. rewrite (layer_learn dbg n w k ch f lb lb (Ok k)); [reflexivity|].
  intros l. destruct k; try contradiction; cbn [kind_learn]; now destruct (l ch f lb 0 0) as [[[c f'] d']| |].
Qed.

Lemma square_learn : forall dbg n w ue gs ge t (ch : red O n) f a c p, t + 1 < u64_mod ->
  ws_learn dbg ((w, KSquareCb ue gs ge t, ch) : red O (S n)) f (LbCb a c p) =
  let* x := ws_learn dbg ch f (LbCb a c f1) in Ok ((w, KSquareCb ue gs ge (t + 1), fst x) : red O (S n), snd x).
Proof.
  intros dbg n w ue gs ge t ch f a c p T.
  rewrite (layer_learn dbg n w (KSquareCb ue gs ge t) ch f (LbCb a c p) (LbCb a c f1) (Ok (KSquareCb ue gs ge (t + 1)))); [reflexivity|].
  intros l. cbn [kind_learn as_cb_label bind]. destruct (l ch f (LbCb a c f1) 0 0) as [[[c' f'] d']| |]; cbn [bind]; auto.
  unfold add64. apply N.ltb_lt in T. now rewrite T.
Qed.
Lemma square_learn_other : forall dbg n w ue gs ge t (ch : red O n) f lb, (forall a c p, lb <> LbCb a c p) ->
  ws_learn dbg ((w, KSquareCb ue gs ge t, ch) : red O (S n)) f lb = Pn PType.
Proof.
  intros dbg n w ue gs ge t ch f lb N. unfold ws_learn. cbn [learn]. unfold wrap.
  assert (DI : depth_inc dbg 0 (w_below w) 0 = Ok 0).
  { unfold depth_inc, u8_mul. rewrite N.mul_0_r. reflexivity. }
  rewrite DI. cbn [bind]. destruct lb as [v wt|b|a c p]; cbn [kind_learn as_cb_label bind]; try reflexivity. exfalso. now apply (N a c p).
Qed.

Lemma plain_learn_all : forall dbg n w (k : kind O) h (ch : red O n), plain_explorer k ->
  learn_all dbg ((w, k, ch) : red O (S n)) h = let* c := learn_all dbg ch h in Ok ((w, k, c) : red O (S n)).
Proof.
  intros dbg n w k h. induction h as [|[f lb] h IH]; intros ch K; [reflexivity|]. cbn [learn_all]. rewrite plain_learn by exact K.
  destruct (ws_learn dbg ch f lb) as [[c f']| |]; cbn [bind fst]; auto.
Qed.

Lemma square_learn_all : forall dbg n w ue gs ge h t (ch : red O n), t + N.of_nat (length h) < u64_mod ->
  (forall f lb, In (f, lb) h -> exists a c p, lb = LbCb a c p) ->
  learn_all dbg ((w, KSquareCb ue gs ge t, ch) : red O (S n)) h =
  let* c := learn_all dbg ch (map (fun e => (fst e, sure (snd e))) h) in
  Ok ((w, KSquareCb ue gs ge (t + N.of_nat (length h)), c) : red O (S n)).
Proof.
  intros dbg n w ue gs ge h. induction h as [|[f lb] h IH]; intros t ch T L.
  - cbn [learn_all map length bind]. now rewrite N.add_0_r.
  - cbn [length] in T. rewrite Nat2N.inj_succ in T. cbn [learn_all map fst snd length].
    destruct (L f lb (or_introl eq_refl)) as (a & c & p & ->). rewrite square_learn by lia. cbn [sure].
    destruct (ws_learn dbg ch f (LbCb a c f1)) as [[c' f']| |]; cbn [bind fst]; auto.
    rewrite IH; [|lia|intros f0 lb0 I; apply (L f0); now right].
    now replace (t + 1 + N.of_nat (length h)) with (t + N.of_nat (S (length h))) by lia.
Qed.

Lemma ptl_layer : forall dbg n w (k : kind O) (ch : red O n) f lb p r' f',
  match k with KGreedy _ | KSoftmax _ _ _ | KSquareCb _ _ _ _ => True | _ => False end ->
  ws_ptl dbg ((w, k, ch) : red O (S n)) f lb = Ok (p, r', f') ->
  exists scores k' ch' f1, ws_predict dbg ch f = Ok (PrScores scores, f1) /\
    ws_learn dbg ch f1 (match k with KSquareCb _ _ _ _ => sure lb | _ => lb end) = Ok (ch', f') /\ r' = (w, k', ch').
Proof.
  intros dbg n w k ch f lb p r' f' K H. apply ws_ptl_ok in H. cbn [predict_then_learn] in H. apply wrap0_ok in H; [|reflexivity].
  destruct H as (H & _). binv H. destruct v as (((q & (k' & ch')) & g) & e). inversion H; subst. clear H.
  assert (D : default_ptl (fun f d => kind_predict dbg k (predict dbg n ch) f d 0) (fun f d => kind_learn dbg k (learn dbg n) ch f lb d 0) f 0 =
    Ok (p, (k', ch'), f', 0)) by (destruct k; try contradiction; exact B).
  unfold default_ptl in D. binv D. destruct v as ((q1 & g1) & e1). binv D. destruct v as ((k1 & g2) & e2).
  destruct (e2 =? 0) eqn:E2; [|discriminate]. inversion D; subst. clear D. rename B0 into P, B1 into L.
  assert (E1 : e1 = 0 /\ exists sc, predict dbg n ch f 0 0 = Ok (PrScores sc, g1, 0)).
  { destruct k; try contradiction; cbn [kind_predict] in P; binv P; destruct v as ((q & g) & e);
      destruct q; cbn [as_scores bind] in P; try discriminate; binv P; inversion P; subst;
      pose proof (predict_d _ _ _ _ 0 _ _ _ eq_refl B0); subst; eauto. }
  destruct E1 as (-> & sc & E1). exists sc, k', ch', g1. split; [now apply ws_predict_ok|]. split; [|reflexivity].
  apply ws_learn_ok. destruct k; try contradiction; cbn [kind_learn] in L.
  - binv L. destruct v as ((c & g) & e). inversion L; subst. exact B0.
  - binv L. destruct v as ((c & g) & e). inversion L; subst. exact B0.
  - binv L. destruct v as ((act & cost) & prob). binv L. destruct v as ((c & g) & e). binv L. inversion L; subst.
    destruct lb; cbn [as_cb_label] in B0; try discriminate. inversion B0; subst. exact B1.
Qed.
End D.

Lemma policy_irrelevant : forall (O : FOps) dbg n w1 w2 (k1 k2 : kind O) h (ch : red O n) r,
  plain_explorer k1 -> plain_explorer k2 -> learn_all dbg ((w1, k1, ch) : red O (S n)) h = Ok r ->
  exists ch', r = (w1, k1, ch') /\ learn_all dbg ch h = Ok ch' /\ learn_all dbg ((w2, k2, ch) : red O (S n)) h = Ok (w2, k2, ch').
Proof.
  intros O dbg n w1 w2 k1 k2 h ch r K1 K2 E. rewrite plain_learn_all in E by exact K1. binv E. inversion E; subst.
  exists v. split; [reflexivity|]. split; [exact B|]. rewrite plain_learn_all by exact K2. now rewrite B.
Qed.

Lemma square_gamma : forall (O : FOps) dbg n w ue gs ge h (ch : red O n) r f p f',
  N.of_nat (length h) < u64_mod -> learn_all dbg ((w, KSquareCb ue gs ge 0, ch) : red O (S n)) h = Ok r ->
  ws_predict dbg r f = Ok (p, f') ->
  exists ch' scores probs, learn_all dbg ch (map (fun e => (fst e, sure (snd e))) h) = Ok ch' /\
    r = (w, KSquareCb ue gs ge (N.of_nat (length h)), ch') /\
    ws_predict dbg ch' f = Ok (PrScores scores, f') /\ p = PrProbs probs /\
    squarecb_probs dbg ue (f_mul O gs (f_pow O (f_of_N (N.of_nat (length h))) ge)) scores = Ok probs.
Proof.
  intros O dbg n w ue gs ge h ch r f p f' T E P.
  assert (L : forall f lb, In (f, lb) h -> exists a c p, lb = LbCb a c p).
  { clear P T. generalize dependent E. generalize 0. revert ch. induction h as [|[g lb] h IH]; intros ch t E f0 lb0 I; [contradiction|].
    cbn [learn_all] in E. binv E.
    assert (Q : exists a c p, lb = LbCb a c p).
    { assert (QO : (forall a c p, lb <> LbCb a c p) -> False).
      { intros N. rewrite (square_learn_other dbg n w ue gs ge t ch g lb N) in B. discriminate. }
      destruct lb as [u v0|b|a c q]; [exfalso; apply QO; discriminate|exfalso; apply QO; discriminate|eauto]. }
    destruct I as [I|I]; [inversion I; subst; exact Q|].
    destruct v as (r1 & g1). apply ws_learn_level in B. destruct B as (k' & ch' & B & ->).
    cbn [kind_learn] in B. binv B. destruct v as ((a1 & c1) & q1). binv B. destruct v as ((c2 & g2) & e2). binv B. inversion B; subst.
    cbn [fst] in E. exact (IH _ _ E _ _ I). }
  rewrite square_learn_all in E by auto. binv E. inversion E; subst. clear E.
  apply explore_policy in P; [|exact Logic.I]. destruct P as (sc & pr & A1 & A2 & A3 & A4 & A5).
  exists v, sc, pr. auto.
Qed.
Definition ex_sq_cfg : rcfg BF0 := CSquareCb f0 (f_lit BF0 10 1) (f_lit BF0 1 2) (CCbAdf Mtr (CCoin coin_default)).
Definition ex_sq_trained : bool :=
  match ws_new ex_hash false ex_gc ex_sq_cfg with
  | Ok R => match learn_all false (projT2 R) [(ex_fts, ex_lb); (ex_fts, ex_lb)] with
            | Ok r => is_ok (ws_predict false r ex_fts)
            | _ => false end
  | _ => false end.
