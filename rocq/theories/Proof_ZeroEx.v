(** C93: concrete runs. *)
From Coq Require Import List NArith ZArith Bool Lia Reals.
From Verif Require Import Base FloatOps FloatR FloatB32 Model_Hash Model_Features Model_Weights Model_Loss
  Model_Interactions Model_Types Model_Coin Spec_Coin Proof_StackProps Proof_Coin Proof_CoinR Spec_Zero Proof_Zero.
Import ListNotations.
Open Scope N_scope.

Section Runs.
Variable O : FOps.
Definition zr_wide : sfeats O := [(NsDefault, mkSfn NsDefault [9; 10] [@f0 O; @f1 O] true)].
Definition zr_slim : sfeats O := [(NsDefault, mkSfn NsDefault [10] [@f1 O] true)].
Definition zr_nine : sfeats O := [(NsDefault, mkSfn NsDefault [9] [@f1 O] true)].
Definition zr_later : list (example O) := [mkEx zr_nine f1 f1; mkEx zr_nine f1 f1].
Definition zr_run : list (example O) := mkEx zr_wide (fl 3) f1 :: zr_later.
Definition zr_slim_run : list (example O) := mkEx zr_slim (fl 3) f1 :: zr_later.
Definition zr_idle : list (example O) := [mkEx zr_wide (fl 3) f1; mkEx (two O) f1 f1].
Definition zr_slim_idle : list (example O) := [mkEx zr_slim (fl 3) f1; mkEx (two O) f1 f1].
Definition zr_D (i : N) : bool := i =? 9.
End Runs.

Lemma weight_zero_refuted : forall ex lx px, let O := BF ex lx px in
  ~ (forall H dbg (cfg : coin_config O) gc nma c0 h e c c' f p p',
       coin_new H dbg cfg gc nma = Ok c0 -> train dbg h c0 = Ok c -> is_zero (ex_w e) ->
       coin_learn dbg c (ex_f e) (ex_y e) (ex_w e) = Ok c' ->
       coin_predict dbg c f = Ok p -> coin_predict dbg c' f = Ok p' ->
       f_eqb O (scalar_of p) (scalar_of p') = true).
Proof.
  intros ex lx px O K.
  assert (C : match coin_new ex_hash true (@coin_default O) gc16n 1 with
    | Ok c0 => match train true [mkEx (other O) f1 f1] c0 with
      | Ok c => match coin_learn true c (other O) f1 f0, coin_predict true c (other O) with
        | Ok c', Ok p => match coin_predict true c' (other O) with
           | Ok p' => negb (f_eqb O (scalar_of p) (scalar_of p')) | _ => false end
        | _, _ => false end
      | _ => false end
    | _ => false end = true) by (vm_compute; reflexivity).
  destruct (coin_new ex_hash true (@coin_default O) gc16n 1) as [c0|x|x] eqn:E0; try discriminate.
  destruct (train true [mkEx (other O) f1 f1] c0) as [c|x|x] eqn:E1; try discriminate.
  destruct (coin_learn true c (other O) f1 f0) as [c'|x|x] eqn:E2; try discriminate.
  destruct (coin_predict true c (other O)) as [p|x|x] eqn:E3; try discriminate.
  destruct (coin_predict true c' (other O)) as [p'|x|x] eqn:E4; try discriminate.
  rewrite (K _ _ _ _ _ _ _ (mkEx (other O) f1 f0) _ _ _ _ _ E0 E1 eq_refl E2 E3 E4) in C. discriminate.
Qed.

Lemma thin_self : forall (O : FOps) (l : list (N * O)), thinned l l.
Proof. intros O l. induction l; constructor; auto. Qed.

Lemma value_zero_refuted : forall ex lx px, let O := BF ex lx px in
  ~ (forall H dbg (cfg : coin_config O) gc nma c0 h h' c c' f p p',
       coin_new H dbg cfg gc nma = Ok c0 -> Forall2 (same_but (thinner dbg c0)) h h' ->
       train dbg h c0 = Ok c -> train dbg h' c0 = Ok c' ->
       coin_predict dbg c f = Ok p -> coin_predict dbg c' f = Ok p' ->
       f_eqb O (scalar_of p) (scalar_of p') = true).
Proof.
  intros ex lx px O K.
  assert (C : match coin_new ex_hash true (@coin_default O) gc16n 1 with
    | Ok c0 => match train true (zr_run O) c0, train true (zr_slim_run O) c0 with
      | Ok c, Ok c' => match coin_predict true c (zr_nine O), coin_predict true c' (zr_nine O) with
           | Ok p, Ok p' => negb (f_eqb O (scalar_of p) (scalar_of p')) | _, _ => false end
      | _, _ => false end
    | _ => false end = true) by (vm_compute; reflexivity).
  destruct (coin_new ex_hash true (@coin_default O) gc16n 1) as [c0|x|x] eqn:E0; try discriminate.
  assert (R : Forall2 (same_but (thinner true c0)) (zr_run O) (zr_slim_run O)).
  { assert (N1 : thinner true c0 (zr_nine O) (zr_nine O)).
    { vm_compute in E0. inversion E0; subst c0. eexists _, _. split; [reflexivity|]. split; [reflexivity|]. apply thin_self. }
    assert (N2 : thinner true c0 (zr_wide O) (zr_slim O)).
    { vm_compute in E0. inversion E0; subst c0. eexists _, _. split; [reflexivity|]. split; [reflexivity|].
      apply thin_drop; [reflexivity|]. apply thin_self. }
    repeat constructor; auto. }
  destruct (train true (zr_run O) c0) as [c|x|x] eqn:E1; try discriminate.
  destruct (train true (zr_slim_run O) c0) as [c'|x|x] eqn:E2; try discriminate.
  destruct (coin_predict true c (zr_nine O)) as [p|x|x] eqn:E3; try discriminate.
  destruct (coin_predict true c' (zr_nine O)) as [p'|x|x] eqn:E4; try discriminate.
  rewrite (K _ _ _ _ _ _ _ _ _ _ _ _ _ E0 R E1 E2 E3 E4) in C. discriminate.
Qed.

Lemma zr_below : forall O, below 16 (zr_wide O) /\ below 16 (zr_slim O) /\ below 16 (zr_nine O).
Proof.
  intros O. repeat split; intros i v H; cbn in H;
  repeat (destruct H as [H|H]; [inversion H; subst; lia|]); contradiction.
Qed.
Lemma zr_exists : exists c0 : coin RF,
  coin_new ex_hash true (@coin_default RF) gc16 1 = Ok c0 /\
  bits_to_max_feature_index true (gc_bits gc16) = Ok 16 /\
  Forall (fun e => below 16 (ex_f e)) (zr_idle RF) /\ Forall (fun e => below 16 (ex_f e)) (zr_slim_idle RF) /\
  below 16 (zr_wide RF) /\ is_zero (0%R : RF) /\
  thinner true c0 (zr_wide RF) (zr_slim RF) /\
  Forall2 (same_but (without true c0 zr_D)) (zr_idle RF) (zr_slim_idle RF) /\
  without true c0 zr_D (zr_wide RF) (zr_slim RF).
Proof.
  destruct ex_coin_R as (c0 & E & _).
  exists c0. split; [exact E|]. split; [reflexivity|].
  destruct (zr_below RF) as (B1 & B2 & B3). destruct (ex_below RF) as (B4 & _).
  split; [repeat constructor; auto|]. split; [repeat constructor; auto|]. split; auto.
  split; [now apply is_zero_R|].
  assert (Z : @is_zero RF f0) by (apply is_zero_R; apply RF_f0).
  assert (Q : co_pairs c0 = [] /\ co_triples c0 = [] /\ co_bits c0 = 4 /\ co_const c0 = true).
  { unfold coin_new in E. apply bind_ok in E. destruct E as (pt & Ep & E). cbn in Ep. inversion Ep; subst pt; clear Ep.
    cbn [fst snd cc_loss coin_default] in E.
    apply bind_ok in E. destruct E as (n & _ & E). apply bind_ok in E. destruct E as (w & _ & E). inversion E; subst. repeat split. }
  destruct Q as (Q1 & Q2 & Q3 & Q4).
  assert (T : thinner true c0 (zr_wide RF) (zr_slim RF)).
  { unfold thinner, coin_feats. rewrite Q1, Q2, Q3, Q4. eexists _, _. split; [reflexivity|]. split; [reflexivity|].
    apply thin_drop; auto. apply thin_self. }
  assert (Wo : without true c0 zr_D (zr_wide RF) (zr_slim RF)).
  { unfold without, coin_feats. rewrite Q1, Q2, Q3, Q4. eexists. split; [reflexivity|]. split; [reflexivity|].
    intros i v H D. apply N.eqb_eq in D. subst i. cbn in H. repeat (destruct H as [H|H]; [inversion H; subst; auto|]). contradiction. }
  assert (W2 : without true c0 zr_D (two RF) (two RF)).
  { unfold without, coin_feats. rewrite Q1, Q2, Q3, Q4. eexists. split; [reflexivity|]. split; [reflexivity|].
    intros i v H D. apply N.eqb_eq in D. subst i. cbn in H. repeat (destruct H as [H|H]; [inversion H; subst; auto|]). contradiction. }
  split; auto. split; auto. repeat constructor; auto.
Qed.
