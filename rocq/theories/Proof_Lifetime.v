(** Exploring stacks over their lifetime, on exactly the single precision floats. *)
From Coq Require Import List NArith ZArith Bool Lia PeanoNat Reals Lra.
From Coq Require Import Floats.SpecFloat.
From Verif Require Import Base FloatOps FloatB32 FloatV32 Model_Hash Model_Features Model_Weights Model_Loss Model_Interactions Model_Types Model_Explore
  Model_Coin Model_Stack Model_Factory Spec_Features Proof_Features Proof_FloatOrder Spec_Coin Spec_Stack Spec_Reductions Spec_Total Spec_Explore Spec_FloatReal
  Proof_StackCong Proof_StackRestore Proof_StackShape Proof_StackProps Proof_Types Proof_Total Proof_Reductions Proof_Release
  Proof_FloatRound Proof_FloatSum Proof_FloatSqrt Proof_FloatPolicy Proof_FloatMorph Spec_Lifetime.
Import ListNotations.
Open Scope N_scope.

Section Any.
Context {O : FOps} (FO : ford O).

(** ** raw predictions are never NaN *)
Definition clean (p : prediction O) : Prop :=
  match p with
  | PrScalar _ y => f_isnan O y = false
  | PrScores l => forall a s, In (a, s) l -> f_isnan O s = false
  | _ => True
  end.
Lemma loop_clean : forall dbg (child : features O -> N -> N -> out (pres O (prediction O))) sh,
  (forall f d mo p f' d', child f d mo = Ok (p, f', d') -> clean p) ->
  forall x i d sc acts d', cb_predict_loop dbg child sh x i d = Ok (sc, acts, d') -> clean (PrScores sc).
Proof.
  intros dbg child sh C. induction x as [|a x IH]; intros i d sc acts d' E; cbn [cb_predict_loop] in E.
  - inversion E; subst. intros b s [].
  - binv E. binv E. destruct v0 as ((p & f') & d1). binv E. binv E. binv E. destruct v2 as ((sc' & acts') & d2). inversion E; subst.
    intros b s [K|K]; [|eapply IH; eauto]. inversion K; subst. apply C in B0. destruct p; try discriminate. inversion B1; subst. exact B0.
Qed.
Lemma predict_clean : forall dbg n (r : red O n) f d mo p f' d', predict dbg n r f d mo = Ok (p, f', d') -> clean p.
Proof.
  induction n as [|n IH]; intros r f d mo p f' d' E.
  - cbn [predict] in E. apply wrap_ok in E. destruct E as (d1 & d2 & E). unfold coin_predict_body in E. binv E. binv E. inversion E; subst.
    unfold coin_predict in B0. binv B0. binv B0. binv B0. inversion B0; subst. cbn [clean].
    destruct (f_isnan O v1) eqn:Nn; auto. apply (fo_lits O FO).
  - destruct r as ((w & k) & ch). cbn [predict] in E. apply wrap_ok in E. destruct E as (d1 & d2 & E). destruct k; cbn [kind_predict] in E.
    + binv E. destruct v as ((p1 & g) & e). binv E. inversion E; subst. exact Logic.I.
    + binv E. binv E. destruct v0 as ((sc & acts) & e). inversion E; subst. eapply loop_clean; [|exact B0]. intros; eapply IH; eauto.
    + binv E. destruct v as ((p1 & g) & e). binv E. binv E. inversion E; subst. exact Logic.I.
    + binv E. destruct v as ((p1 & g) & e). binv E. binv E. inversion E; subst. exact Logic.I.
    + binv E. destruct v as ((p1 & g) & e). binv E. binv E. inversion E; subst. exact Logic.I.
    + apply elem_frame_inv in E. destruct E as (g & g' & E). eapply IH; eauto.
    + eapply IH; eauto.
Qed.

(** ** types *)
Lemma scores_not_weighted : forall n (r : red O n), typed n r -> td_out_pred (red_types r) = PTScores -> uses_weighted r = false.
Proof.
  induction n as [|n IH]; intros r T P; [reflexivity|].
  destruct r as ((w & k) & ch). destruct T as (T1 & T2 & T3). pose proof (td_good _ _ T3) as (G1 & G2 & G3).
  change (red_types (n := S n) (w, k, ch)) with (w_types w) in P. rewrite T2 in *. unfold uses_weighted. cbn [some_kind fst snd].
  destruct k; cbn [kind_td td_out_pred td_out_label td_in_pred td_cb_adf td_explore] in *; try discriminate; cbn [orb].
  - inversion G1 as [G1']. destruct (typed_simple n ch T1) as (_ & _ & U); [congruence|exact U].
  - apply IH; auto.
  - apply IH; auto.
Qed.
Lemma find_explorer : forall H dbg gc nma (c : rcfg O) R, create H dbg gc nma c = Ok R -> td_out_pred (red_types (projT2 R)) = PTProbs ->
  uses_elem (projT2 R) = false -> forall r, shape _ (projT2 R) r ->
  exists k0 k m ch, explorer_of c = Some k0 /\ same_explorer k0 k /\ topmost _ r k m ch.
Proof.
  intros H dbg gc nma c. induction c; intros R E P U r Sh; cbn [create] in E; try discriminate.
  - binv E. inversion E; subst. cbn in P. discriminate.
  - binv E. apply add_level_ok in E. destruct E as (-> & _). cbn in P. discriminate.
  - binv E. apply add_level_ok in E. destruct E as (-> & _). cbn in P. discriminate.
  - binv E. apply add_level_ok in E. destruct E as (-> & _). destruct r as ((w & k) & ch). cbn [projT1 projT2] in Sh.
    destruct Sh as (_ & K & _). cbn [fst snd] in K. exists (KGreedy eps), k, (projT1 v), ch. split; [reflexivity|].
    split; [destruct k; cbn in K |- *; try tauto|apply top_here].
  - binv E. apply add_level_ok in E. destruct E as (-> & _). destruct r as ((w & k) & ch). cbn [projT1 projT2] in Sh.
    destruct Sh as (_ & K & _). cbn [fst snd] in K. exists (KSoftmax ueps lambda 0), k, (projT1 v), ch. split; [reflexivity|].
    split; [destruct k; cbn in K |- *; try tauto|apply top_here].
  - assert (E' : (let* ch := create H dbg gc nma c in add_level nma td_explore (KSquareCb ueps gscale gexp 0) ch) = Ok R).
    { destruct c; auto. destruct ty; auto. discriminate. }
    clear E. rename E' into E.
    binv E. apply add_level_ok in E. destruct E as (-> & _). destruct r as ((w & k) & ch). cbn [projT1 projT2] in Sh.
    destruct Sh as (_ & K & _). cbn [fst snd] in K. exists (KSquareCb ueps gscale gexp 0), k, (projT1 v), ch. split; [reflexivity|].
    split; [destruct k; cbn in K |- *; try tauto|apply top_here].
  - binv E. apply add_level_ok in E. destruct E as (-> & _). unfold uses_elem in U. cbn in U. discriminate.
  - binv E. apply add_level_ok in E. destruct E as (-> & _). destruct r as ((w & k) & ch). cbn [projT1 projT2] in *.
    destruct Sh as (_ & K & Sh). cbn [fst snd] in K, Sh. destruct k; cbn in K; try contradiction.
    destruct (IHc v B) with (r := ch) as (k0 & k & m & x & Q1 & Q2 & Q3); auto.
    exists k0, k, m, x. split; [exact Q1|]. split; auto. now apply top_debug.
Qed.
Definition explorer (k : kind O) : Prop := match k with KGreedy _ | KSoftmax _ _ _ | KSquareCb _ _ _ _ => True | _ => False end.
Lemma same_is : forall k0 k : kind O, same_explorer k0 k -> explorer k.
Proof. intros [] []; cbn; tauto. Qed.
Lemma top_inv : forall dbg fs n (r : red O n) k m (ch : red O m), topmost n r k m ch -> explorer k -> inv dbg fs n r ->
  inv dbg fs m ch /\ td_in_feats (red_types ch) = FTCb /\ td_out_pred (red_types ch) = PTScores.
Proof.
  intros dbg fs n r k m ch T X. induction T; intros ((T1 & T2 & T3) & El & C).
  - unfold uses_elem in El. cbn [some_kind fst snd] in El. apply orb_false_elim in El. destruct El as (_ & El).
    pose proof (td_good _ _ T3) as (G1 & G2 & G3). rewrite T2 in *.
    split; [split; [exact T1|split; [exact El|exact C]]|].
    destruct k; cbn in X; try contradiction; cbn in G2, G3; split; congruence.
  - unfold uses_elem in El. cbn [some_kind fst snd] in El. apply orb_false_elim in El. destruct El as (_ & El).
    apply IHT; auto. split; [exact T1|split; [exact El|exact C]].
Qed.
Lemma top_predict : forall n (r : red O n) k m (ch : red O m) f f' sc pr, topmost n r k m ch -> explorer k ->
  predict false m ch f 0 0 = Ok (PrScores sc, f', 0) -> probs_of false k sc = Ok pr ->
  predict false n r f 0 0 = Ok (PrProbs pr, f', 0).
Proof.
  intros n r k m ch f f' sc pr T X. induction T; intros E P.
  - cbn [predict]. apply wrap_release; [lia|]. destruct k; cbn in X; try contradiction; cbn [kind_predict probs_of] in *;
      rewrite E; cbn [bind as_scores]; rewrite P; reflexivity.
  - cbn [predict]. apply wrap_release; [lia|]. cbn [kind_predict]. auto.
Qed.
Lemma built_rgood : forall fs (f : features O), built_fts f -> all_below fs f -> rgood fs f.
Proof.
  intros fs f B A a Ha. split; [|intros i v; apply (A a Ha)]. apply built_wf.
  destruct f as [b|s x]; cbn in *; [destruct Ha as [<-|[]]; exact B|]. destruct B as (B1 & B2).
  destruct s; [destruct Ha as [<-|Ha]; auto|auto].
Qed.
Lemma scores_reached : forall H gc (c : rcfg O) R r (f : features O) n,
  ws_new H false gc c = Ok R -> reach false (projT2 R) r -> uses_elem (projT2 R) = false ->
  bits_to_max_feature_index false (gc_bits gc) = Ok n -> built_fts f -> all_below n f -> feat_type_of f = FTCb ->
  td_out_pred (red_types (projT2 R)) = PTProbs ->
  exists k0 k m (ch : red O m) sc f1, explorer_of c = Some k0 /\ same_explorer k0 k /\ topmost _ r k m ch /\
    predict false m ch f 0 0 = Ok (PrScores sc, f1, 0) /\ map fst sc = map N.of_nat (seq 0 (N.to_nat (num_actions f))) /\
    (forall a s, In (a, s) sc -> f_isnan O s = false).
Proof.
  intros H gc c R r f n E Q U Hb Bf Ab Tf P.
  destruct (find_explorer _ _ _ _ _ _ E P U r (reach_shape _ _ _ _ Q)) as (k0 & k & m & ch & A1 & A2 & A3).
  destruct (reach_inv FO _ _ _ _ _ _ _ E Q Hb U) as (I & Tr & _).
  destruct (top_inv _ _ _ _ _ _ _ A3 (same_is _ _ A2) I) as (Ic & Fc & Pc).
  destruct (rel_predict n m 0 eq_refl ch f Ic) as (p & f1 & Ep & Tp & Ord).
  - apply scores_not_weighted; [apply Ic|exact Pc].
  - now apply built_rgood.
  - congruence.
  - rewrite Pc. discriminate.
  - rewrite Pc in Tp. destruct p as [?|?|sc|?]; try discriminate.
    exists k0, k, m, ch, sc, f1. do 4 (split; [assumption|]). split; [exact Ord|]. exact (predict_clean _ _ _ _ _ _ _ _ _ Ep).
Qed.
End Any.

(** ** the floats *)
Section Floats.
Variables (vexp vln : v32 -> v32) (vpow : v32 -> v32 -> v32).
Let V := VF vexp vln vpow.
Let B := BF (lift1 vexp) (lift1 vln) (lift2 vpow).

Lemma exp_unit_lift : vexp_unit vexp -> exp_unit (lift1 vexp).
Proof.
  intros (X1 & X2). split.
  - intros s. change (S754_zero s) with (un (exist _ (S754_zero s) (zer_ok s))). rewrite lift1_un. now apply (X1 _ s).
  - intros x Ox K. change x with (un (exist _ x Ox)). rewrite lift1_un. destruct (X2 (exist _ x Ox)) as (F & G); [exact K|].
    split; [split; [exact (proj2_sig _)|exact F]|exact G].
Qed.
Lemma unl_he : forall l : list (N * v32), map (he (A:=V) (B:=B) un) l = unl l.
Proof. reflexivity. Qed.
Lemma numbers : forall sc : list (N * v32), no_inf sc -> (forall a s, In (a, s) sc -> b_isnan (un s) = false) -> fnumbers (unl sc).
Proof.
  intros sc I Nn a p H. apply in_map_iff in H. destruct H as ((b & s) & E & H). cbn [fst snd] in E. inversion E; subst.
  split; [exact (proj2_sig s)|]. specialize (I _ _ H). specialize (Nn _ _ H). destruct (un s); try discriminate; reflexivity.
Qed.
Lemma settled_probs : forall (k : kind V) (sc : list (N * v32)), sc <> [] -> (INR (length sc) <= 3000)%R -> NoDup (map fst sc) ->
  (forall a s, In (a, s) sc -> b_isnan (un s) = false) -> settled vexp vln vpow k sc ->
  exists pr : list (N * v32), probs_of (O:=V) false k sc = Ok pr /\ map fst pr = map fst sc /\
    fdist (unl pr) (INR (length sc) * p2 (-18)).
Proof.
  intros k sc N0 L D Nn S. set (M := un_morph vexp vln vpow).
  assert (N1 : unl sc <> []) by (destruct sc; [congruence|discriminate]).
  assert (L1 : length (unl sc) = length sc) by apply map_length.
  assert (F1 : map fst (unl sc) = map fst sc) by (unfold unl; rewrite map_map; reflexivity).
  assert (LP : (1 <= INR (length sc))%R) by (apply len_pos; auto).
  assert (Q : exists x : out (list (N * v32)), probs_of (O:=V) false k sc = x /\
     exists rb, om (map (he (A:=V) (B:=B) un)) x = Ok rb /\ map fst rb = map fst (unl sc) /\ fdist rb (INR (length sc) * p2 (-18))).
  { eexists. split; [reflexivity|]. destruct k; cbn [settled probs_of] in *; try contradiction.
    - destruct (greedy_policy (lift1 vexp) (lift1 vln) (lift2 vpow) (un eps) (unl sc) N1) as (rb & A1 & A2 & (A3 & A4) & _); [rewrite L1; lra|exact S|].
      exists rb. split; [rewrite (greedy_h (A:=V) (B:=B) un M); exact A1|]. split; [exact A2|]. split; [exact A3|].
      eapply Rle_trans; [exact A4|]. rewrite p2_18, p2_21, u_val. lra.
    - destruct S as (S1 & S2 & S3 & S4).
      destruct (soft_policy (lift1 vexp) (lift1 vln) (lift2 vpow) false (un ueps) (un lambda) (unl sc) (exp_unit_lift S4) N1) as (rb & A1 & A2 & A3);
        [rewrite L1; lra|now apply numbers|exact S2|exact S1|].
      rewrite L1 in A3. exists rb. split; [rewrite (soft_h (A:=V) (B:=B) un M); exact A1|auto].
    - destruct S as (S1 & S2 & S3).
      destruct (square_policy (lift1 vexp) (lift1 vln) (lift2 vpow) false (un ueps) (un (squarecb_gamma (O:=V) gscale gexp counter)) (unl sc) N1) as (rb & A1 & A2 & A3);
        [rewrite L1; lra|rewrite F1; exact D|now apply numbers|exact S2|exact S1|].
      rewrite L1 in A3. exists rb. split; [rewrite (square_h (A:=V) (B:=B) un M); exact A1|auto]. }
  destruct Q as (x & Ex & rb & Eb & Fb & Db). destruct x as [pr|e|p]; cbn [om] in Eb; try discriminate. inversion Eb; subst rb. clear Eb.
  rewrite unl_he in Fb, Db. exists pr. split; auto. split; auto. rewrite F1 in Fb. rewrite <- Fb. unfold unl. rewrite map_map. reflexivity.
Qed.

Lemma lifetime : forall H gc (c : rcfg V) R r (f : features V) n,
  ws_new H false gc c = Ok R -> reach false (projT2 R) r -> uses_elem (projT2 R) = false ->
  bits_to_max_feature_index false (gc_bits gc) = Ok n -> built_fts f -> all_below n f -> feat_type_of f = FTCb ->
  td_out_pred (red_types (projT2 R)) = PTProbs -> 0 < num_actions f <= 3000 ->
  exists k0 k m (ch : red V m) (sc : list (N * V)) f1, explorer_of c = Some k0 /\ same_explorer k0 k /\ topmost _ r k m ch /\
    ws_predict false ch f = Ok (PrScores sc, f1) /\ map fst sc = map N.of_nat (seq 0 (N.to_nat (num_actions f))) /\
    (forall a s, In (a, s) sc -> f_isnan V s = false) /\
    (settled vexp vln vpow k sc -> exists pr : list (N * V), ws_predict false r f = Ok (PrProbs pr, f1) /\ map fst pr = map fst sc /\
       fdist (unl pr) (INR (length sc) * p2 (-18))).
Proof.
  intros H gc c R r f n E Q U Hb Bf Ab Tf P Na.
  destruct (scores_reached (VF_ford vexp vln vpow) H gc c R r f n E Q U Hb Bf Ab Tf P) as (k0 & k & m & ch & sc & f1 & A1 & A2 & A3 & A4 & A5 & A6).
  exists k0, k, m, ch, sc, f1. do 3 (split; [assumption|]).
  split; [apply ws_predict_ok; exact A4|]. split; [exact A5|]. split; [exact A6|]. intros S.
  assert (Ls : length sc = N.to_nat (num_actions f)) by (rewrite <- (map_length fst sc), A5, map_length, seq_length; reflexivity).
  destruct (settled_probs k sc) as (pr & B1 & B2 & B3).
  - intros ->. cbn in Ls. lia.
  - match goal with |- (INR ?x <= _)%R => replace x with (N.to_nat (num_actions f)) by (symmetry; exact Ls) end.
    replace 3000%R with (INR (N.to_nat 3000)) by (rewrite INR_IZR_INZ; f_equal; lia). apply le_INR. lia.
  - match goal with |- NoDup ?x => replace x with (map N.of_nat (seq 0 (N.to_nat (num_actions f)))) by (symmetry; exact A5) end.
    apply FinFun.Injective_map_NoDup; [intros x y; apply Nat2N.inj|apply seq_NoDup].
  - exact A6.
  - exact S.
  - exists pr. split; [|auto]. apply ws_predict_ok. eapply top_predict; eauto. eapply same_is; eauto.
Qed.
End Floats.
