(** C15-C17 on stacks, C23, C47, C48. *)
From Coq Require Import List NArith ZArith Bool Lia.
From Verif Require Import Base FloatOps Model_Hash Model_Features Model_Weights Model_Loss Model_Types Model_Explore
  Model_Coin Model_Stack Model_Factory Spec_Features Spec_Stack Spec_Reductions Proof_Features
  Proof_StackCong Proof_StackRestore Proof_StackShape Proof_StackPtl Proof_StackProps.
Import ListNotations.

Section P.
Context {O : FOps}.

(** inverting one level *)
Lemma ws_predict_level : forall dbg n w (k : kind O) (ch : red O n) f p f',
  ws_predict dbg ((w, k, ch) : red O (S n)) f = Ok (p, f') ->
  kind_predict dbg k (predict dbg n ch) f 0 0 = Ok (p, f', 0%N).
Proof.
  intros dbg n w k ch f p f' H. apply ws_predict_ok in H. cbn [predict] in H. apply wrap0_ok in H; [|lia]. apply H.
Qed.
Lemma ws_learn_level : forall dbg n w (k : kind O) (ch : red O n) f lb r' f',
  ws_learn dbg ((w, k, ch) : red O (S n)) f lb = Ok (r', f') ->
  exists k' ch', kind_learn dbg k (learn dbg n) ch f lb 0 0 = Ok ((k', ch'), f', 0%N) /\ r' = (w, k', ch').
Proof.
  intros dbg n w k ch f lb r' f' H. apply ws_learn_ok in H. cbn [learn] in H. apply wrap0_ok in H; [|lia].
  destruct H as (H & _). binv H. destruct v as (((k' & ch') & g) & e). inversion H; subst. eauto.
Qed.

(** ** numbering of scores *)
Lemma numbered_cons : forall i (l : list (N * O)) x,
  (forall j y, nth_error l j = Some y -> fst y = (N.of_nat j + (i + 1))%N) ->
  forall j y, nth_error ((i, x) :: l) j = Some y -> fst y = (N.of_nat j + i)%N.
Proof.
  intros i l x H [|j] y E; simpl in E.
  - inversion E; subst. simpl. lia.
  - rewrite (H _ _ E). lia.
Qed.

Lemma loop_numbered : forall dbg child (s : option (sfeats O)) x i d l acts d',
  cb_predict_loop dbg child s x i d = Ok (l, acts, d') ->
  length l = length x /\ length acts = length x /\ forall j y, nth_error l j = Some y -> fst y = (N.of_nat j + i)%N.
Proof.
  induction x as [|a x IH]; intros i d l acts d' H; cbn [cb_predict_loop] in H.
  - inversion H; subst. split; auto. split; auto. intros [|j] y E; discriminate.
  - binv H. binv H. destruct v0 as ((p & f') & d1). binv H. binv H. binv H. destruct v2 as ((scs & acs) & d2).
    inversion H; subst. apply IH in B3. destruct B3 as (L1 & L2 & L3). simpl. repeat split; auto.
    now apply numbered_cons.
Qed.

Lemma predict_scores_numbered : forall dbg n (r : red O n) f d mo l f' d',
  predict dbg n r f d mo = Ok (PrScores l, f', d') -> numbered l.
Proof.
  induction n as [|n IH]; intros r f d mo l f' d' H.
  - cbn [predict] in H. apply wrap_ok in H. destruct H as (d1 & d2 & H). unfold coin_predict_body in H.
    binv H. binv H. inversion H; subst. unfold coin_predict in B0. binv B0. binv B0. binv B0. discriminate.
  - cbn [predict] in H. destruct r as ((w & k) & ch). apply wrap_ok in H. destruct H as (d1 & d2 & H).
    destruct k; cbn [kind_predict] in H.
    + binv H. destruct v as ((p & g) & e). binv H. discriminate.
    + binv H. binv H. destruct v0 as ((scs & acs) & d3). inversion H; subst.
      apply loop_numbered in B0. intros i x E. destruct B0 as (_ & _ & K). rewrite (K _ _ E). lia.
    + binv H. destruct v as ((p & g) & e). binv H. binv H. discriminate.
    + binv H. destruct v as ((p & g) & e). binv H. binv H. discriminate.
    + binv H. destruct v as ((p & g) & e). binv H. binv H. discriminate.
    + apply elem_frame_inv in H. destruct H as (g & g' & H). eauto.
    + eauto.
Qed.

Lemma numbered_nodup : forall (l : list (N * O)), numbered l -> NoDup (map fst l).
Proof.
  intros l H. apply NoDup_nth_error. intros i j Hi E. rewrite map_length in Hi. rewrite !nth_error_map in E.
  destruct (nth_error l i) as [x|] eqn:Ei; [|apply nth_error_None in Ei; lia].
  destruct (nth_error l j) as [y|] eqn:Ej; [|simpl in E; discriminate]. simpl in E. inversion E.
  rewrite (H _ _ Ei), (H _ _ Ej) in H1. lia.
Qed.

(** the child of an exploration reduction *)
Definition probs_of (dbg : bool) (k : kind O) (scores : list (N * O)) : out (list (N * O)) :=
  match k with
  | KGreedy eps => greedy_probs eps scores
  | KSoftmax ueps lambda _ => softmax_probs dbg ueps lambda scores
  | KSquareCb ueps gs ge counter => squarecb_probs dbg ueps (squarecb_gamma gs ge counter) scores
  | _ => Pn PType
  end.
Lemma explore_level : forall dbg n w (k : kind O) (ch : red O n) f p f',
  match k with KGreedy _ | KSoftmax _ _ _ | KSquareCb _ _ _ _ => True | _ => False end ->
  ws_predict dbg ((w, k, ch) : red O (S n)) f = Ok (p, f') ->
  exists scores probs, ws_predict dbg ch f = Ok (PrScores scores, f') /\ numbered scores /\
    probs_of dbg k scores = Ok probs /\ p = PrProbs probs.
Proof.
  intros dbg n w k ch f p f' Hk H. apply ws_predict_level in H.
  destruct k; cbn [kind_predict] in H; try contradiction;
  binv H; destruct v as ((q & g) & e); destruct q; cbn [as_scores bind] in H; try discriminate;
  binv H; inversion H; subst; exists l, v;
  (split; [apply ws_predict_ok; exact B|]);
  (split; [eapply predict_scores_numbered; exact B|]); (split; [exact B0|reflexivity]).
Qed.

Lemma explore_policy : forall dbg n w (k : kind O) (ch : red O n) f p f',
  match k with KGreedy _ | KSoftmax _ _ _ | KSquareCb _ _ _ _ => True | _ => False end ->
  ws_predict dbg ((w, k, ch) : red O (S n)) f = Ok (p, f') ->
  exists scores probs, ws_predict dbg ch f = Ok (PrScores scores, f') /\ numbered scores /\ NoDup (map fst scores) /\
    p = PrProbs probs /\
    match k with
    | KGreedy eps => greedy_probs eps scores = Ok probs
    | KSoftmax ueps la _ => softmax_probs dbg ueps la scores = Ok probs
    | KSquareCb ueps gs ge counter => squarecb_probs dbg ueps (squarecb_gamma gs ge counter) scores = Ok probs
    | _ => False
    end.
Proof.
  intros dbg n w k ch f p f' Hk H. destruct (explore_level _ _ _ _ _ _ _ _ Hk H) as (sc & pr & A & B & C & D).
  exists sc, pr. split; auto. split; auto. split; [now apply numbered_nodup|]. split; auto.
  destruct k; try contradiction; exact C.
Qed.

(** ** C23 *)
Lemma feats_in_get : forall k (m : sfeats O), feats_in k m =
  match fm_get k m with Some s => if sfn_active s then sfn_iter s else [] | None => [] end.
Proof.
  intros k m. unfold feats_in, sf_get. destruct (fm_get k m) as [s|]; auto. destruct (sfn_active s); auto.
Qed.

Lemma combine_cat : forall A B (a b : list A) (c d : list B), length a = length c ->
  combine (a ++ b) (c ++ d) = combine a c ++ combine b d.
Proof. induction a as [|x a IH]; intros b [|y c] d L; simpl in *; try discriminate; auto. f_equal. apply IH. lia. Qed.

Lemma append_combines : forall a b c : sfeats O, fwf a -> fwf b -> separable a b -> sf_append a b = Ok c ->
  combines a (Some b) c.
Proof.
  intros a b c Wa Wb Hs E k. destruct (append_get a b Wa Wb) as (r & E' & Wr & G). rewrite E in E'. inversion E'; subst r.
  rewrite !feats_in_get, G. destruct (fm_get k b) as [t|] eqn:Eb; [|now rewrite app_nil_r].
  destruct (sfn_active t) eqn:At; [|now rewrite app_nil_r].
  assert (Pk : proper_entry k a). { apply Hs. unfold sf_get. rewrite Eb, At. congruence. }
  cbn [sfn_active sfn_cat]. unfold item. destruct (fm_get k a) as [s|] eqn:Ea.
  - destruct (proj2 Wa _ _ Ea) as (_ & L). specialize (Pk s Ea). unfold sfn_iter in *. simpl.
    destruct (sfn_active s) eqn:As.
    + apply combine_cat. exact L.
    + assert (N0 : combine (sfn_idx s) (sfn_val s) = []).
      { destruct (combine (sfn_idx s) (sfn_val s)); auto. exfalso. destruct Pk as (_ & P2). assert (false = true) by (apply P2; congruence). discriminate. }
      destruct (sfn_idx s), (sfn_val s); simpl in *; try discriminate; reflexivity.
  - reflexivity.
Qed.

Lemma loop_scores : forall dbg n (ch : red O n) (s : option (sfeats O)) x i l acts d',
  (forall a, In a x -> fwf a) -> (forall b, s = Some b -> fwf b /\ forall a, In a x -> separable a b) ->
  cb_predict_loop dbg (predict dbg n ch) s x i 0 = Ok (l, acts, d') ->
  forall j a, nth_error x j = Some a -> exists a1 v raw g,
    append_opt a s = Ok a1 /\ combines a s a1 /\ ws_predict dbg ch (FtsSimple a1) = Ok (PrScalar v raw, g) /\
    nth_error l j = Some ((N.of_nat j + i)%N, raw).
Proof.
  induction x as [|a x IH]; intros i l acts d' Hx Hs H j a0 E; [destruct j; discriminate|].
  cbn [cb_predict_loop] in H. binv H. binv H. destruct v0 as ((p & f') & d1). binv H. binv H. binv H. destruct v2 as ((scs & acs) & d2).
  inversion H; subst. clear H. assert (d1 = 0%N) by (eapply (predict_d dbg n ch); [|exact B0]; lia). subst d1.
  destruct j as [|j]; simpl in E.
  - inversion E; subst a0. destruct p; try discriminate. inversion B1; subst v0.
    exists v, p, raw, f'. split; [exact B|]. split.
    + destruct s as [b|]; simpl in B.
      * destruct (Hs b eq_refl) as (Wb & Sb). eapply append_combines; eauto.
        -- apply Hx. now left.
        -- apply Sb. now left.
      * inversion B; subst. intros k. now rewrite app_nil_r.
    + split; [apply ws_predict_ok; exact B0|]. reflexivity.
  - destruct (IH (i + 1)%N scs acs d') with (j := j) (a := a0) as (a1 & v' & raw & g & X1 & X2 & X3 & X4); auto.
    + intros; apply Hx; now right.
    + intros b Eb. destruct (Hs b Eb) as (W & S). split; auto. intros; apply S; now right.
    + exists a1, v', raw, g. split; auto. split; auto. split; auto. cbn [nth_error]. rewrite X4. f_equal. f_equal. lia.
Qed.

Lemma cb_scores : forall dbg n w ty x y (ch : red O n) shared actions p f',
  plain (FtsCb shared actions) ->
  ws_predict dbg ((w, KCbAdf ty x y, ch) : red O (S n)) (FtsCb shared actions) = Ok (p, f') ->
  exists l, p = PrScores l /\ numbered l /\ length l = length actions /\
    forall i a, nth_error actions i = Some a -> exists a1 v raw g,
      combines a shared a1 /\ ws_predict dbg ch (FtsSimple a1) = Ok (PrScalar v raw, g) /\
      nth_error l i = Some (N.of_nat i, raw).
Proof.
  intros dbg n w ty x y ch shared actions p f' (Bt & Td) H. apply ws_predict_level in H. cbn [kind_predict as_cb bind fst snd] in H.
  binv H. destruct v as ((l & acts) & d'). inversion H; subst. exists l. split; [reflexivity|].
  destruct (loop_numbered _ _ _ _ _ _ _ _ _ B) as (L1 & L2 & L3). simpl in L1. split.
  { intros i z E. rewrite (L3 _ _ E). lia. }
  split; [exact L1|]. intros i a E.
  destruct Bt as (Ba & Bs). destruct Td as (Ta & Ts).
  destruct (loop_scores dbg n ch shared actions 0%N l acts 0%N) with (j := i) (a := a) as (a1 & v & raw & g & X0 & X1 & X2 & X3); auto.
  - intros b Hb. apply built_wf. auto.
  - intros b Eb. subst shared. split; [now apply built_wf|]. intros a0 Ha. apply Ts. exact Ha.
  - exists a1, v, raw, g. split; auto. split; auto. rewrite X3. do 2 f_equal. lia.
Qed.

Lemma loop_independent : forall dbg n (ch : red O n) (s : option (sfeats O)) x y i i' l acts d' l' acts' e',
  cb_predict_loop dbg (predict dbg n ch) s x i 0 = Ok (l, acts, d') ->
  cb_predict_loop dbg (predict dbg n ch) s y i' 0 = Ok (l', acts', e') ->
  forall j j' a, nth_error x j = Some a -> nth_error y j' = Some a ->
  exists raw k k', nth_error l j = Some (k, raw) /\ nth_error l' j' = Some (k', raw).
Proof.
  assert (G : forall dbg n (ch : red O n) (s : option (sfeats O)) x i l acts d' j a,
    cb_predict_loop dbg (predict dbg n ch) s x i 0 = Ok (l, acts, d') -> nth_error x j = Some a ->
    exists k raw, nth_error l j = Some (k, raw) /\ exists a1 p f d1, append_opt a s = Ok a1 /\
      predict dbg n ch (FtsSimple a1) 0 0 = Ok (p, f, d1) /\ exists v, as_scalar p = Ok (v, raw)).
  { induction x as [|b x IH]; intros i l acts d' j a H E; [destruct j; discriminate|].
    cbn [cb_predict_loop] in H. binv H. binv H. destruct v0 as ((p & f') & d1). binv H. binv H. binv H. destruct v2 as ((scs & acs) & d2).
    inversion H; subst. clear H. assert (d1 = 0%N) by (eapply (predict_d dbg n ch); [|exact B0]; lia). subst d1.
    destruct j as [|j]; simpl in E.
    - inversion E; subst. destruct v0 as (v0 & raw). exists i, raw. split; [reflexivity|]. exists v, p, f', 0%N. eauto.
    - destruct (IH _ _ _ _ _ _ B3 E) as (k & raw & X & Y). exists k, raw. auto. }
  intros dbg n ch s x y i i' l acts d' l' acts' e' H K j j' a Ej Ek.
  destruct (G _ _ _ _ _ _ _ _ _ _ _ H Ej) as (k & raw & X & a1 & p & f & d1 & A1 & A2 & v & A3).
  destruct (G _ _ _ _ _ _ _ _ _ _ _ K Ek) as (k' & raw' & X' & a1' & p' & f0 & d1' & A1' & A2' & v' & A3').
  exists raw, k, k'. rewrite A1 in A1'. inversion A1'; subst. rewrite A2 in A2'. inversion A2'; subst.
  rewrite A3 in A3'. inversion A3'; subst. auto.
Qed.

Lemma cb_independent : forall dbg n w ty x y (ch : red O n) shared acts1 acts2 l1 l2 f1 f2,
  ws_predict dbg ((w, KCbAdf ty x y, ch) : red O (S n)) (FtsCb shared acts1) = Ok (PrScores l1, f1) ->
  ws_predict dbg ((w, KCbAdf ty x y, ch) : red O (S n)) (FtsCb shared acts2) = Ok (PrScores l2, f2) ->
  forall i j a, nth_error acts1 i = Some a -> nth_error acts2 j = Some a ->
  exists s, nth_error l1 i = Some (N.of_nat i, s) /\ nth_error l2 j = Some (N.of_nat j, s).
Proof.
  intros dbg n w ty x y ch shared acts1 acts2 l1 l2 f1 f2 H K i j a Ei Ej.
  apply ws_predict_level in H. apply ws_predict_level in K. cbn [kind_predict as_cb bind fst snd] in H, K.
  binv H. destruct v as ((u & a1) & d1). inversion H; subst. binv K. destruct v as ((u & a2) & d2). inversion K; subst.
  destruct (loop_independent _ _ _ _ _ _ _ _ _ _ _ _ _ _ B B0 _ _ _ Ei Ej) as (raw & k & k' & X & Y).
  exists raw. destruct (loop_numbered _ _ _ _ _ _ _ _ _ B) as (_ & _ & L). destruct (loop_numbered _ _ _ _ _ _ _ _ _ B0) as (_ & _ & L').
  rewrite X, Y. pose proof (L _ _ X) as Q1. pose proof (L' _ _ Y) as Q2. simpl in *. subst. split; do 2 f_equal; lia.
Qed.

(** ** C47 *)
Lemma binary_predict : forall dbg n w (ch : red O n) f p f',
  ws_predict dbg ((w, KBinary, ch) : red O (S n)) f = Ok (p, f') ->
  exists v raw, ws_predict dbg ch f = Ok (PrScalar v raw, f') /\ p = PrBinary (f_gtb v f0).
Proof.
  intros dbg n w ch f p f' H. apply ws_predict_level in H. cbn [kind_predict] in H.
  binv H. destruct v as ((q & g) & e). destruct q; cbn [as_scalar bind fst] in H; try discriminate.
  inversion H; subst. exists p0, raw. split; auto. apply ws_predict_ok. exact B.
Qed.
Lemma binary_intro : forall n w (ch : red O n) f v raw f',
  ws_predict false ch f = Ok (PrScalar v raw, f') ->
  ws_predict false ((w, KBinary, ch) : red O (S n)) f = Ok (PrBinary (f_gtb v f0), f').
Proof.
  intros n w ch f v raw f' H. apply ws_predict_ok in H. apply ws_predict_ok. cbn [predict]. apply wrap0_ok; [lia|].
  split; [|reflexivity]. cbn [kind_predict]. rewrite H. reflexivity.
Qed.
Lemma coin_intro : forall w (c : coin O) s p, coin_predict false c s = Ok p ->
  ws_predict false ((w, c) : red O 0) (FtsSimple s) = Ok (p, FtsSimple s).
Proof.
  intros w c s p H. apply ws_predict_ok. cbn [predict]. apply wrap0_ok; [lia|]. split; [|reflexivity].
  unfold coin_predict_body. cbn [as_simple bind snd]. rewrite H. reflexivity.
Qed.
Lemma binary_learn : forall dbg n w (ch : red O n) f b r' f',
  ws_learn dbg ((w, KBinary, ch) : red O (S n)) f (LbBinary b) = Ok (r', f') ->
  exists ch', ws_learn dbg ch f (LbSimple (if b then f1 else f_neg O f1) f1) = Ok (ch', f') /\ r' = (w, KBinary, ch').
Proof.
  intros dbg n w ch f b r' f' H. apply ws_learn_level in H. destruct H as (k' & ch' & H & ->).
  cbn [kind_learn as_binary_label bind] in H. binv H. destruct v as ((c & g) & e). inversion H; subst.
  exists ch'. split; auto. apply ws_learn_ok. exact B.
Qed.

(** ** C48 *)
Lemma ips_loop_seq : forall dbg n action (cost prob : O) (shared : option (sfeats O)) x i (ch : red O n) ch' acts d',
  cb_ips_loop dbg (learn dbg n) action cost prob shared x i ch 0 = Ok (ch', acts, d') ->
  ips_seq dbg action cost prob shared i x ch ch' /\ length acts = length x.
Proof.
  induction x as [|a x IH]; intros i ch ch' acts d' H; cbn [cb_ips_loop] in H.
  - inversion H; subst. split; [constructor|auto].
  - binv H. binv H. binv H. destruct v1 as ((p & f') & d1). binv H. binv H. destruct v2 as ((scs & acs) & d2).
    inversion H; subst. clear H. assert (d1 = 0%N) by (eapply (learn_d dbg n ch); [|exact B1]; lia). subst d1.
    destruct (IH _ _ _ _ _ B3) as (I1 & I2). split; [|simpl; auto].
    econstructor; [| |exact I1].
    + destruct shared as [s|]; simpl in B; [exact B|]. now inversion B.
    + apply ws_learn_ok. unfold ips_label in B0.
      destruct (N.eqb i action); [destruct (dbg && negb (f_gtb prob f0)); [discriminate|]|]; inversion B0; subst; exact B1.
Qed.

Lemma cb_ips_learn : forall dbg n w x y (ch : red O n) shared actions action cost prob r' f',
  ws_learn dbg ((w, KCbAdf Ips x y, ch) : red O (S n)) (FtsCb shared actions) (LbCb action cost prob) = Ok (r', f') ->
  exists ch', r' = (w, KCbAdf Ips x y, ch') /\ ips_seq dbg action cost prob shared 0 actions ch ch'.
Proof.
  intros dbg n w x y ch shared actions action cost prob r' f' H. apply ws_learn_level in H.
  destruct H as (k' & ch' & H & ->). cbn [kind_learn as_cb as_cb_label bind] in H. binv H.
  destruct v as ((c & acts) & e). inversion H; subst. exists ch'. split; auto. eapply ips_loop_seq; exact B.
Qed.

Definition nsum (l : list N) : N := fold_right N.add 0%N l.

Lemma kl_cb_mtr : forall dbg n (ch : red O n) x y f lb k' ch' f' d',
  kind_learn dbg (KCbAdf Mtr x y) (learn dbg n) ch f lb 0 0 = Ok ((k', ch'), f', d') ->
  exists x' y', k' = KCbAdf Mtr x' y' /\
   ((x + num_actions f < u64_mod)%N -> x' = (x + num_actions f)%N) /\ ((y + 1 < u64_mod)%N -> y' = (y + 1)%N) /\
   exists s acts action cost prob a s1 g,
     f = FtsCb (Some s) acts /\ lb = LbCb action cost prob /\ nth_error acts (N.to_nat action) = Some a /\
     sf_append s a = Ok s1 /\
     learn dbg n ch (FtsSimple s1) (LbSimple cost (f_mul O (f_div O f1 prob) (f_div O (f_of_N y') (f_of_N x')))) 0 0 = Ok (ch', g, d') /\
     num_actions f' = num_actions f.
Proof.
  intros dbg n ch x y f lb k' ch' f' d' H. cbn [kind_learn] in H. binv H. destruct f as [|shared acts]; try discriminate.
  inversion B; subst. binv H. destruct lb; try discriminate. inversion B0; subst. cbn [num_actions].
  apply bind_ok in H. destruct H as (x' & B1 & H). apply bind_ok in H. destruct H as (y' & B2 & H).
  destruct shared as [s|]; [|discriminate].
  apply bind_ok in H. destruct H as (a & B3 & H). apply bind_ok in H. destruct H as (s1 & B4 & H).
  apply bind_ok in H. destruct H as (((c & g) & e) & B5 & H). apply bind_ok in H. destruct H as (s2 & B6 & H).
  inversion H; subst. exists x', y'. split; auto.
  unfold add64 in B1, B2. split; [intros L; apply N.ltb_lt in L; rewrite L in B1; now inversion B1|].
  split; [intros L; apply N.ltb_lt in L; rewrite L in B2; now inversion B2|].
  unfold opt_or in B3. destruct (nth_error acts (N.to_nat action)) as [a0|] eqn:Ea; inversion B3; subst.
  exists s, acts, action, cost, prob, a, s1, g. repeat split; auto.
Qed.

Lemma cb_mtr_step : forall dbg n w x y (ch : red O n) f lb r' f',
  ws_learn dbg ((w, KCbAdf Mtr x y, ch) : red O (S n)) f lb = Ok (r', f') ->
  exists x' y' ch', r' = (w, KCbAdf Mtr x' y', ch') /\
   ((x + num_actions f < u64_mod)%N -> x' = (x + num_actions f)%N) /\ ((y + 1 < u64_mod)%N -> y' = (y + 1)%N) /\
   exists s acts action cost prob a s1 g,
     f = FtsCb (Some s) acts /\ lb = LbCb action cost prob /\ nth_error acts (N.to_nat action) = Some a /\
     sf_append s a = Ok s1 /\
     ws_learn dbg ch (FtsSimple s1) (LbSimple cost (f_mul O (f_div O f1 prob) (f_div O (f_of_N y') (f_of_N x')))) = Ok (ch', g).
Proof.
  intros dbg n w x y ch f lb r' f' H. apply ws_learn_level in H. destruct H as (k' & ch' & H & ->).
  apply kl_cb_mtr in H. destruct H as (x' & y' & -> & A & B & s & acts & action & cost & prob & a & s1 & g & E1 & E2 & E3 & E4 & E5 & _).
  exists x', y', ch'. split; auto. split; auto. split; auto.
  exists s, acts, action, cost, prob, a, s1, g. repeat (split; auto). now apply ws_learn_ok.
Qed.

Lemma cb_mtr_ptl_step : forall dbg n w x y (ch : red O n) f lb p r' f',
  ws_ptl dbg ((w, KCbAdf Mtr x y, ch) : red O (S n)) f lb = Ok (p, r', f') ->
  exists x' y' ch', r' = (w, KCbAdf Mtr x' y', ch') /\
   ((x + num_actions f < u64_mod)%N -> x' = (x + num_actions f)%N) /\ ((y + 1 < u64_mod)%N -> y' = (y + 1)%N).
Proof.
  intros dbg n w x y ch f lb p r' f' H. apply ws_ptl_ok in H. cbn [predict_then_learn] in H. apply wrap0_ok in H; [|lia].
  destruct H as (H & _). binv H. destruct v as (((p0 & (k' & ch')) & g) & e). inversion H; subst. clear H.
  cbn [kind_ptl] in B. unfold default_ptl in B. binv B. destruct v as ((pr & g1) & d1). binv B. destruct v as ((z & g2) & d2).
  destruct (d2 =? 0)%N; [|discriminate]. inversion B; subst. clear B.
  cbn [kind_predict] in B0. binv B0. destruct f as [|sh acts]; [discriminate|]. inversion B; subst. cbn [fst snd] in B0.
  binv B0. destruct v as ((l & ac) & d3). inversion B0; subst. destruct (loop_numbered _ _ _ _ _ _ _ _ _ B2) as (_ & L2 & _).
  assert (d1 = 0%N).
  { assert (G : forall x i d l ac d', (d < 256)%N -> cb_predict_loop dbg (predict dbg n ch) sh x i d = Ok (l, ac, d') -> d' = d).
    { clear. induction x as [|a x IH]; intros i d l ac d' Hd H; cbn [cb_predict_loop] in H.
      - now inversion H.
      - binv H. binv H. destruct v0 as ((p & f') & d1). binv H. binv H. binv H. destruct v2 as ((scs & acs) & d2).
        inversion H; subst. apply predict_d in B0; auto. subst. eauto. }
    eapply G; [|exact B2]. lia. }
  subst d1. apply kl_cb_mtr in B1. destruct B1 as (x' & y' & -> & P & Q & _).
  exists x', y', ch'. split; auto. cbn [num_actions] in *. rewrite L2 in P. auto.
Qed.

Lemma trained_sums : forall dbg n w x0 y0 (ch0 : red O n) h r,
  trained dbg ((w, KCbAdf Mtr x0 y0, ch0) : red O (S n)) h r ->
  (x0 + nsum h < u64_mod)%N -> (y0 + N.of_nat (length h) < u64_mod)%N ->
  exists ch, r = (w, KCbAdf Mtr (x0 + nsum h) (y0 + N.of_nat (length h)), ch).
Proof.
  intros dbg n w x0 y0 ch0 h r H. induction H as [|h r f lb r' f' T IH E|h r f lb p r' f' T IH E]; intros Hx Hy.
  - exists ch0. simpl. now rewrite !N.add_0_r.
  - cbn [nsum fold_right length] in *. fold (nsum h) in *. destruct IH as (ch & ->); [lia|lia|].
    apply cb_mtr_step in E. destruct E as (x' & y' & ch' & -> & P & Q & _). exists ch'. rewrite P, Q by lia. do 3 f_equal; lia.
  - cbn [nsum fold_right length] in *. fold (nsum h) in *. destruct IH as (ch & ->); [lia|lia|].
    apply cb_mtr_ptl_step in E. destruct E as (x' & y' & ch' & -> & P & Q). exists ch'. rewrite P, Q by lia. do 3 f_equal; lia.
Qed.

Lemma cb_mtr_learn : forall dbg n w (ch0 : red O n) h r f lb r' f',
  trained dbg ((w, KCbAdf Mtr 0 0, ch0) : red O (S n)) h r ->
  (num_actions f + nsum h < u64_mod)%N -> (N.of_nat (length h) + 1 < u64_mod)%N ->
  ws_learn dbg r f lb = Ok (r', f') ->
  exists k k' ch ch' s acts action cost prob a s1 g, r = (w, k, ch) /\ r' = (w, k', ch') /\
    f = FtsCb (Some s) acts /\ lb = LbCb action cost prob /\ nth_error acts (N.to_nat action) = Some a /\
    sf_append s a = Ok s1 /\
    ws_learn dbg ch (FtsSimple s1) (LbSimple cost (f_mul O (f_div O f1 prob)
      (f_div O (f_of_N (N.of_nat (length h) + 1)) (f_of_N (num_actions f + nsum h))))) = Ok (ch', g).
Proof.
  intros dbg n w ch0 h r f lb r' f' T Hx Hy E. destruct (trained_sums _ _ _ _ _ _ _ _ T) as (ch & ->); [lia|lia|].
  apply cb_mtr_step in E. destruct E as (x' & y' & ch' & -> & P & Q & s & acts & action & cost & prob & a & s1 & g & E1 & E2 & E3 & E4 & E5).
  rewrite P, Q in E5 by lia. exists (KCbAdf Mtr (0 + nsum h) (0 + N.of_nat (length h))), (KCbAdf Mtr x' y'), ch, ch', s, acts, action, cost, prob, a, s1, g.
  repeat (split; auto). replace (N.of_nat (length h) + 1)%N with (0 + N.of_nat (length h) + 1)%N by lia.
  replace (num_actions f + nsum h)%N with (0 + nsum h + num_actions f)%N by lia. exact E5.
Qed.
End P.
