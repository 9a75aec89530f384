(** C83: the statements, and examples. *)
From Coq Require Import List NArith ZArith Bool Lia Reals Lra.
From Verif Require Import Base FloatOps FloatR Model_Hash Model_Features Model_Weights Model_Interactions Model_Types Model_Explore
  Model_Coin Model_Stack Model_Factory Spec_Features Spec_Coin Spec_Stack Spec_Explore Spec_Reductions Spec_Total Spec_Metrics Spec_OffPolicy Spec_Unbiased
  Proof_FloatOrder Proof_Weights Proof_StackRestore Proof_StackProps Proof_Reductions Proof_Total Proof_CoinR Proof_Unbiased.
Import ListNotations.
Open Scope R_scope.

Lemma covered_bounds : forall sh k m g, covered sh k m g -> forall l, log_of g l -> (k < u64_mod)%N -> (m < u64_mod)%N ->
  (k + N.of_nat (length l) < u64_mod)%N /\ (m + fold_right (fun p acc => num_actions (pt_feats p) + acc) 0 l < u64_mod)%N.
Proof.
  induction 1 as [k m|k m f logging cost pred next Hp Ht Nd Cov Hk Hm Hf Hn IH]; intros l L Bk Bm.
  - inversion L; subst. cbn [length fold_right]. lia.
  - inversion L as [|f' lg' co' pr' nx' a p l' Hin Hl]; subst.
    assert (Ha : In a (map fst logging)) by (apply in_map_iff; exists (a, p); auto).
    destruct (IH a Ha l' Hl Hk Hm) as (A & B). cbn [length fold_right pt_feats]. lia.
Qed.

Lemma mtr_main : forall dbg n w (ch0 : red RF n) g, covered true 0 0 g ->
  (forall l r, log_of g l -> taught dbg ((w, KCbAdf Mtr 0 0, ch0) : red RF (S n)) l r ->
     exists k ch, r = (w, k, ch) /\ fed dbg ch0 (mtr_examples 0 0 l) ch) /\
  (forall P, mean_over g (fun l => weighted_loss P (mtr_examples 0 0 l)) = full_loss seen_mtr per_action true_costs P 0 0 g).
Proof.
  intros dbg n w ch0 g C. split; [|now apply mtr_unbiased]. intros l r L T.
  destruct (covered_bounds _ _ _ _ C l L) as (A & B); try reflexivity. eapply mtr_fed; eauto.
Qed.

Lemma ips_main : forall dbg n w x y (ch0 : red RF n) sh g, covered sh 0 0 g ->
  (forall l r, log_of g l -> taught dbg ((w, KCbAdf Ips x y, ch0) : red RF (S n)) l r ->
     exists k ch, r = (w, k, ch) /\ fed dbg ch0 (ips_examples l) ch) /\
  (forall P Q, mean_over g (fun l => weighted_loss P (ips_examples l)) - mean_over g (fun l => weighted_loss Q (ips_examples l)) =
    full_loss seen_ips constant true_costs P 0 0 g - full_loss seen_ips constant true_costs Q 0 0 g).
Proof.
  intros dbg n w x y ch0 sh g C. split; [|now apply (ips_unbiased sh)]. intros l r L T.
  destruct (ips_fed _ _ _ _ _ _ _ _ T) as (ch & -> & Fd). eauto.
Qed.

Lemma explorer_main : forall dbg n w k (r0 : red RF n) l r,
  match k with KGreedy _ | KSoftmax _ _ _ | KDebug => True | _ => False end ->
  taught dbg ((w, k, r0) : red RF (S n)) l r -> exists r', r = (w, k, r') /\ taught dbg r0 l r'.
Proof. intros dbg n w k r0 l r K T. apply explorer_taught with (l := l); auto. destruct k; try contradiction; reflexivity. Qed.

Lemma certain_bounds : forall l, length (map certain l) = length l /\
  fold_right (fun p acc => num_actions (pt_feats p) + acc)%N 0%N (map certain l) = fold_right (fun p acc => num_actions (pt_feats p) + acc)%N 0%N l.
Proof.
  intros l. split; [apply map_length|]. induction l as [|p l IH]; cbn [map fold_right]; auto. now rewrite IH, certain_feats.
Qed.

Lemma squarecb_mtr_main : forall dbg n w1 ue gs ge c w (ch0 : red RF n) g, covered true 0 0 g ->
  (forall l r, log_of g l -> taught dbg ((w1, KSquareCb ue gs ge c, ((w, KCbAdf Mtr 0 0, ch0) : red RF (S n))) : red RF (S (S n))) l r ->
     exists k1 k ch, r = (w1, k1, (w, k, ch)) /\ fed dbg ch0 (mtr_examples 0 0 (map certain l)) ch) /\
  (forall P, mean_over g (fun l => weighted_loss P (mtr_examples 0 0 (map certain l))) = drawn_loss P 0 0 g).
Proof.
  intros dbg n w1 ue gs ge c w ch0 g C. split; [|now apply squarecb_mtr]. intros l r L T.
  destruct (squarecb_taught _ _ _ _ _ _ _ _ _ _ T) as (c' & r' & -> & T').
  destruct (covered_bounds _ _ _ _ C l L) as (A & B); try reflexivity. destruct (certain_bounds l) as (E1 & E2).
  rewrite <- E1 in A. rewrite <- E2 in B. destruct (mtr_fed _ _ _ _ _ _ _ _ T' A B) as (k & ch & -> & Fd). eauto.
Qed.

Lemma squarecb_ips_main : forall dbg n w1 ue gs ge c w2 w x y (ch0 : red RF n) sh g, covered sh 0 0 g ->
  (forall l r, log_of g l ->
     taught dbg ((w1, KSquareCb ue gs ge c, ((w2, KDebug, ((w, KCbAdf Ips x y, ch0) : red RF (S n))) : red RF (S (S n)))) : red RF (S (S (S n)))) l r ->
     exists k1 k ch, r = (w1, k1, (w2, KDebug, (w, k, ch))) /\ fed dbg ch0 (ips_examples (map certain l)) ch) /\
  (forall P Q, mean_over g (fun l => weighted_loss P (ips_examples (map certain l))) - mean_over g (fun l => weighted_loss Q (ips_examples (map certain l))) =
    full_loss seen_ips constant shrunk_costs P 0 0 g - full_loss seen_ips constant shrunk_costs Q 0 0 g).
Proof.
  intros dbg n w1 ue gs ge c w2 w x y ch0 sh g C. split; [|now apply (squarecb_ips sh)]. intros l r L T.
  destruct (squarecb_taught _ _ _ _ _ _ _ _ _ _ T) as (c' & r0 & -> & T0).
  destruct (explorer_taught dbg (S n) w2 KDebug _ _ _ eq_refl T0) as (r' & -> & T').
  destruct (ips_fed _ _ _ _ _ _ _ _ T') as (ch & -> & Fd). eauto.
Qed.

(** ** examples *)
Definition ub_hist : list (fop RF) := [FAdd 1 NsDefault 5 (@f1 RF); FAdd 2 NsDefault 6 (@fl RF 2)].
Definition ub_store : fstore RF := match fops_run false ub_hist fstore0 with Ok st => st | _ => fstore0 end.
(** no shared feature, two actions with one feature each *)
Definition ub_fts : features RF := FtsCb (Some (ub_store 0%nat)) [ub_store 1%nat; ub_store 2%nat].
Fixpoint ub_game (p : R) (cost : N -> R) (t : nat) : game :=
  match t with
  | 0%nat => Over
  | S t => Round ub_fts [(0%N, p); (1%N, 1 - p)] cost [] (fun _ => ub_game p cost t)
  end.

Lemma ub_covered : forall p cost sh t k m, 0 < p < 1 -> (k + N.of_nat t < u64_mod)%N -> (m + 2 * N.of_nat t < u64_mod)%N ->
  covered sh k m (ub_game p cost t).
Proof.
  intros p cost sh. induction t as [|t IH]; intros k m Hp Hk Hm; cbn [ub_game]; constructor.
  - intros a q [E|[E|[]]]; inversion E; subst; lra.
  - cbn [total]. lra.
  - cbn [map fst]. constructor; [intros [K|[]]; discriminate|]. constructor; [intros []|constructor].
  - intros a. cbn [map fst In]. change (num_actions ub_fts) with 2%N. split; [intros [<-|[<-|[]]]; lia|].
    intros H. destruct (N.eq_dec a 0); [left; lia|right; left; lia].
  - lia.
  - change (num_actions ub_fts) with 2%N. lia.
  - exact Logic.I.
  - intros a _. change (num_actions ub_fts) with 2%N. apply IH; auto; lia.
Qed.

Lemma ub_new : exists w (ch : red RF 0),
  ws_new ex_hash false gc16n (CCbAdf Mtr (CCoin (@coin_default RF))) = Ok (existT (red RF) 1%nat (w, KCbAdf Mtr 0 0, ch)) /\
  td_in_feats (red_types ((w, KCbAdf Mtr 0 0, ch) : red RF 1)) = feat_type_of ub_fts /\
  forall a c p, td_in_label (red_types ((w, KCbAdf Mtr 0 0, ch) : red RF 1)) = label_type_of (@LbCb RF a c p).
Proof.
  unfold ws_new. cbn [create]. unfold coin_new. cbn [bind]. destruct (@dw_new_ok RF false 16 1 6) as (w & E & _); try lia.
  cbn [gc_inter gc16n gc_seed compile_interactions bind].
  change (bits_to_max_feature_index false (gc_bits gc16n)) with (Ok 16%N : out N). cbn [bind cc_loss coin_default].
  rewrite E. cbn [bind]. eexists. eexists. split; [reflexivity|split; reflexivity].
Qed.

Lemma ub_built : forall i, built (ub_store i).
Proof. intros i. exists false, ub_hist, ub_store, i. split; reflexivity. Qed.
Lemma ub_plain : plain ub_fts.
Proof.
  split.
  - split; [intros a [<-|[<-|[]]]; apply ub_built|apply ub_built].
  - assert (N0 : forall i, no_composite (ub_store i)).
    { intros [|[|[|i]]] h s H; cbn in H; discriminate. }
    split; [intros a [<-|[<-|[]]]; apply N0|]. split; [apply N0|].
    intros a Ha. split; intros k H; [exfalso; apply H; reflexivity|]. intros s Hs. cbn in Hs. discriminate.
Qed.
Lemma ub_below : all_below 16 ub_fts.
Proof.
  intros a Ha i v Hin. cbn in Ha. destruct Ha as [<-|[<-|[<-|[]]]]; cbn in Hin; try contradiction;
    destruct Hin as [K|[]]; inversion K; reflexivity.
Qed.
Lemma ub_learn : forall (R0 : anyred RF) r a c p,
  ws_new ex_hash false gc16n (CCbAdf Mtr (CCoin (@coin_default RF))) = Ok R0 ->
  reach false (projT2 R0) r -> (a < 2)%N ->
  exists r' f', ws_learn false r ub_fts (LbCb a c p) = Ok (r', f').
Proof.
  intros R0 r a c p E Q Ha. destruct ub_new as (w & ch & E' & Tf & Tl). rewrite E in E'. inversion E'; subst R0. cbn [projT1 projT2] in *.
  assert (G : f_gtb (@f1 RF) f0 = true). { unfold f_gtb. rewrite RF_f0, RF_f1. cbn [f_ltb RF]. destruct (Rltb_spec 0 1); auto; lra. }
  assert (SE : forall v : RF, f_isnan RF v = false -> f_eqb RF v v = true). { intros v _. cbn [f_eqb RF]. destruct (Reqb_spec v v); auto; congruence. }
  destruct (learn_returns (O := RF) RF_ford G SE ex_hash false gc16n _ (existT (red RF) 1%nat (w, KCbAdf Mtr 0 0, ch)) r ub_fts (LbCb a c p) 16%N E Q) as (r' & f' & L & _);
    [reflexivity|reflexivity|apply ub_plain|apply ub_below|symmetry; exact Tf|symmetry; apply Tl| |discriminate|eauto].
  intros _. do 5 eexists. split; [reflexivity|]. split; [reflexivity|]. cbn [length]. lia.
Qed.

Lemma ub_taught : forall (R0 : anyred RF) p cost t l r,
  ws_new ex_hash false gc16n (CCbAdf Mtr (CCoin (@coin_default RF))) = Ok R0 ->
  reach false (projT2 R0) r -> log_of (ub_game p cost t) l -> exists r', taught false r l r'.
Proof.
  intros R0 p cost. induction t as [|t IH]; intros l r E Q L; cbn [ub_game] in L.
  - inversion L; subst. eexists. constructor.
  - inversion L as [|f' lg' co' pr' nx' a q l' Hin Hl]; subst.
    assert (Ha : (a < 2)%N) by (destruct Hin as [K|[K|[]]]; inversion K; lia).
    destruct (ub_learn R0 r a (cost a) q E Q Ha) as (r1 & f1 & L1).
    destruct (IH l' r1 E) as (r' & T); auto. { eapply reach_learn; eauto. }
    exists r'. econstructor; [exact L1|exact T].
Qed.

Lemma ub_example : forall (p : R) (cost : N -> R) (t : nat), 0 < p < 1 -> (2 * N.of_nat t < u64_mod)%N ->
  covered true 0 0 (ub_game p cost t) /\
  exists w (ch : red RF 0),
    ws_new ex_hash false gc16n (CCbAdf Mtr (CCoin (@coin_default RF))) = Ok (existT (red RF) 1%nat (w, KCbAdf Mtr 0 0, ch)) /\
    forall l, log_of (ub_game p cost t) l -> exists r, taught false ((w, KCbAdf Mtr 0 0, ch) : red RF 1) l r.
Proof.
  intros p cost t Hp Ht. split; [apply ub_covered; auto; lia|].
  destruct ub_new as (w & ch & E & _). exists w, ch. split; auto. intros l L.
  exact (ub_taught (existT (red RF) 1%nat (w, KCbAdf Mtr 0 0, ch)) p cost t l _ E (reach_refl _ _) L).
Qed.

(** One round, both actions cost 1 and are drawn with probability 1/2. *)
Definition ub_half : game := ub_game (/ 2) (fun _ => 1) 1.
Lemma ub_refuted : covered true 0 0 ub_half /\
  full_loss seen_ips constant true_costs (fun _ => 1) 0 0 ub_half = 0 /\
  0 < full_loss seen_ips constant true_costs (fun _ => / 2) 0 0 ub_half /\
  mean_over ub_half (fun l => weighted_loss (fun _ => / 2) (ips_examples (map certain l))) <
  mean_over ub_half (fun l => weighted_loss (fun _ => 1) (ips_examples (map certain l))).
Proof.
  assert (C : covered true 0 0 ub_half) by (apply ub_covered; [lra|reflexivity|reflexivity]).
  split; auto.
  assert (S2 : exists a b, seen_ips ub_fts = [a; b]) by (cbn; eauto). destruct S2 as (a & b & S2).
  split; [|split].
  - unfold ub_half. cbn [ub_game full_loss]. rewrite S2. cbn [all_loss fold_right fst snd]. unfold constant, true_costs. lra.
  - unfold ub_half. cbn [ub_game full_loss]. rewrite S2. cbn [all_loss fold_right fst snd]. unfold constant, true_costs. lra.
  - pose proof (squarecb_ips true ub_half C (fun _ => 1) (fun _ => / 2)) as E.
    unfold ub_half in E at 3 4. cbn [ub_game full_loss] in E. rewrite S2 in E. cbn [all_loss fold_right fst snd] in E.
    unfold constant, shrunk_costs in E. cbn [fold_right fst snd N.eqb N.add Pos.eqb] in E.
    lra.
Qed.

Lemma ub_sq_new : forall ue gs ge : R, exists w1 w2 w (ch : red RF 0),
  ws_new ex_hash false gc16n (CSquareCb ue gs ge (CDebug (CCbAdf Ips (CCoin (@coin_default RF))))) =
    Ok (existT (red RF) 3%nat (w1, KSquareCb ue gs ge 0, ((w2, KDebug, ((w, KCbAdf Ips 0 0, ch) : red RF 1)) : red RF 2))).
Proof.
  intros ue gs ge. unfold ws_new. cbn [create]. unfold coin_new. cbn [bind]. destruct (@dw_new_ok RF false 16 1 6) as (w & E & _); try lia.
  cbn [gc_inter gc16n gc_seed compile_interactions bind].
  change (bits_to_max_feature_index false (gc_bits gc16n)) with (Ok 16%N : out N). cbn [bind cc_loss coin_default].
  rewrite E. cbn [bind]. do 4 eexists. reflexivity.
Qed.
