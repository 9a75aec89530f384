(** C94: the unit of the costs of a bandit. *)
From Coq Require Import List NArith ZArith Bool Lia Reals Lra.
From Verif Require Import Base FloatOps FloatR Model_Hash Model_Features Model_Weights Model_Loss
  Model_Interactions Model_Types Model_Explore Model_Coin Model_Stack Model_Factory Spec_Features Spec_Weights Spec_Coin Spec_Stack Spec_Explore
  Spec_CbExplore Spec_Reductions Spec_Total Spec_Metrics Spec_OffPolicy Spec_Unbiased Spec_Learn Spec_Scale
  Proof_Weights Proof_Explore Proof_ExploreProps Proof_FloatOrder Proof_StackRestore Proof_StackProps Proof_Reductions Proof_Total
  Proof_Coin Proof_CbExplore Proof_CoinR Proof_Regret Proof_Unbiased Proof_UnbiasedEx Proof_Learn Proof_LearnCb Proof_LearnEx Proof_Scale.
Import ListNotations.
Open Scope R_scope.

Lemma sp_feats : forall s p, pt_feats (scaled_point s p) = pt_feats p.
Proof. intros s p. unfold scaled_point. destruct (pt_label p); reflexivity. Qed.
Lemma sp_countable : forall s l, countable l -> countable (map (scaled_point s) l).
Proof.
  intros s l (A & B). unfold countable. rewrite map_length. split; auto.
  assert (E : forall l, fold_right (fun p acc => (num_actions (pt_feats p) + acc)%N) 0%N (map (scaled_point s) l) =
    fold_right (fun p acc => (num_actions (pt_feats p) + acc)%N) 0%N l).
  { induction l0 as [|p l0 IH]; auto. cbn [map fold_right]. now rewrite IH, sp_feats. }
  rewrite E. exact B.
Qed.
Lemma mtr_scaled : forall s l k m, mtr_examples k m (map (scaled_point s) l) = map (scaled_ex s) (mtr_examples k m l).
Proof.
  intros s l. induction l as [|p l IH]; intros k m; auto. cbn [map mtr_examples]. rewrite sp_feats, IH, map_app. f_equal.
  unfold scaled_point. destruct (pt_label p) eqn:E; cbn [pt_label]; rewrite ?E; reflexivity.
Qed.
Lemma round_scaled : forall s a y xs i, ips_round a (s * y) i xs = map (scaled_ex s) (ips_round a y i xs).
Proof.
  intros s a y xs. induction xs as [|x xs IH]; intros i; auto. cbn [map ips_round]. rewrite IH. f_equal. unfold scaled_ex. cbn [ex_f ex_y ex_w].
  destruct (N.eqb i a); auto. now rewrite Rmult_0_r.
Qed.
Lemma ips_scaled : forall s l, ips_examples (map (scaled_point s) l) = map (scaled_ex s) (ips_examples l).
Proof.
  intros s l. induction l as [|p l IH]; auto. cbn [map ips_examples]. rewrite sp_feats, IH, map_app. f_equal.
  unfold scaled_point. destruct (pt_label p) eqn:E; cbn [pt_label]; rewrite ?E; auto.
  rewrite <- round_scaled. f_equal. unfold Rdiv. now rewrite Rmult_assoc.
Qed.

(** what a stack has learnt: its regressor was trained on the examples *)
Lemma cb_learnt : forall dbg ty w w0 (c0 : coin RF) l r, taught dbg ((w, KCbAdf ty 0 0, (w0, c0)) : red RF 1) l r -> countable l ->
  exists x y c, r = ((w, KCbAdf ty x y, (w0, c)) : red RF 1) /\
    train dbg (match ty with Mtr => mtr_examples 0 0 l | Ips => ips_examples l end) c0 = Ok c.
Proof.
  intros dbg ty w w0 c0 l r T (K1 & K2). destruct ty.
  - destruct (ips_fed dbg 0 w l 0 0 ((w0, c0) : red RF 0) r T) as (ch & -> & Fd).
    destruct (leaf_fed _ _ _ _ _ Fd) as (c & Ec & ->). eauto.
  - destruct (mtr_fed dbg 0 w l 0 0 ((w0, c0) : red RF 0) r T) as (k & ch & Er & Fd); auto.
    destruct (mtr_kind dbg 0 w l 0 0 ((w0, c0) : red RF 0) r T) as (x & y & ch' & Er').
    destruct (leaf_fed _ _ _ _ _ Fd) as (c & Ec & ->). rewrite Er' in Er. inversion Er; subst. eauto.
Qed.

Lemma nth_same : forall (A : Type) (l l' : list A), (forall j, nth_error l j = nth_error l' j) -> l = l'.
Proof.
  induction l as [|x l IH]; intros [|y l'] K; auto.
  - specialize (K 0%nat). discriminate.
  - specialize (K 0%nat). discriminate.
  - pose proof (K 0%nat) as K0. cbn in K0. inversion K0. f_equal. apply IH. intros j. exact (K (S j)).
Qed.
Definition times (s : R) (sc : list (N * R)) : list (N * R) := map (fun x => (fst x, s * snd x)) sc.
Lemma costs_main : forall H dbg ty (cfg : coin_config RF) gc nma n (c0 c0' : coin RF) s w w0 w' w0' l r r' f p p' g g', s <> 0 ->
  coin_new H dbg cfg gc nma = Ok c0 -> coin_new H dbg (scaled_cfg s cfg) gc nma = Ok c0' ->
  (0 < nma < 2 ^ 8)%N -> bits_to_max_feature_index dbg (gc_bits gc) = Ok n -> cc_loss cfg = LossSquared \/ Rabs s = 1 ->
  countable l -> Forall (fun e => below n (ex_f e)) (match ty with Mtr => mtr_examples 0 0 l | Ips => ips_examples l end) ->
  Forall (below n) (seen_ips f) ->
  taught dbg ((w, KCbAdf ty 0 0, (w0, c0)) : red RF 1) l r ->
  taught dbg ((w', KCbAdf ty 0 0, (w0', c0')) : red RF 1) (map (scaled_point s) l) r' ->
  ws_predict dbg r f = Ok (p, g) -> ws_predict dbg r' f = Ok (p', g') ->
  exists sc : list (N * R), p = @PrScores RF sc /\ p' = @PrScores RF (map (fun x => (fst x, s * snd x)) sc).
Proof.
  intros H dbg ty cfg gc nma n c0 c0' s w w0 w' w0' l r r' f p p' g g' s0 E E' Hn Hb Hl Cl Bh Bf T T' P P'.
  destruct (cb_learnt _ _ _ _ _ _ _ T Cl) as (x & y & c & -> & Tr).
  destruct (cb_learnt _ _ _ _ _ _ _ T' (sp_countable s l Cl)) as (x' & y' & c' & -> & Tr').
  assert (Q : match ty with Mtr => mtr_examples 0 0 (map (scaled_point s) l) | Ips => ips_examples (map (scaled_point s) l) end =
    map (scaled_ex s) (match ty with Mtr => mtr_examples 0 0 l | Ips => ips_examples l end)) by (destruct ty; [apply ips_scaled|apply mtr_scaled]).
  rewrite Q in Tr'. clear Q.
  destruct (cb_raw _ _ _ _ _ _ _ _ _ _ P) as (sc & -> & Sc). destruct (cb_raw _ _ _ _ _ _ _ _ _ _ P') as (sc' & -> & Sc').
  exists sc. split; auto. f_equal. apply nth_same. intros j. rewrite nth_error_map. specialize (Sc j). specialize (Sc' j).
  rewrite Forall_forall in Bf. destruct (nth_error (seen_ips f) j) as [z|] eqn:Ej.
  - destruct Sc as (v & raw & Pz & Nz). destruct Sc' as (v' & raw' & Pz' & Nz').
    destruct (scale_main H dbg cfg gc nma n c0 s _ z s0 E Hn Hb Hl Bh (Bf _ (nth_error_In _ _ Ej))) as (d0 & d & d' & q & rw & G1 & G2 & G3 & G4 & G5).
    rewrite E' in G1. inversion G1; subst d0. rewrite Tr in G2. inversion G2; subst d. rewrite Tr' in G3. inversion G3; subst d'.
    rewrite Pz in G4. inversion G4; subst. rewrite Pz' in G5. inversion G5; subst.
    transitivity (Some (N.of_nat j, (s * rw)%R)); [exact Nz'|]. change (@nth_error (N * R) sc j = Some (N.of_nat j, rw)) in Nz. rewrite Nz. reflexivity.
  - transitivity (@None (N * R)); [exact Sc'|]. change (@nth_error (N * R) sc j = None) in Sc. rewrite Sc. reflexivity.
Qed.

(** *** exploration *)
Lemma first_times : forall s gt (sc : list (N * R)), 0 < s -> gtR gt -> sc <> [] -> exists i a c,
  @min_by RF gt sc = Ok (N.of_nat i, (a, c)) /\ nth_error sc i = Some (a, c) /\ @min_by RF gt (times s sc) = Ok (N.of_nat i, (a, s * c)).
Proof.
  intros s gt sc Hs G Ne. destruct (min_by_spec gt G sc Ne) as (i & a & c & E & Ei & M).
  assert (Ne' : times s sc <> []) by (destruct sc; cbn; congruence).
  destruct (min_by_spec gt G (times s sc) Ne') as (i' & a' & c' & E' & Ei' & M').
  exists i, a, c. split; auto. split; auto.
  assert (F : first_min (times s sc) i').  { exists a', c'. auto. }
  assert (F' : first_min (times s sc) i).
  { exists a, (s * c). split. { unfold times. rewrite nth_error_map, Ei. reflexivity. }
    intros j b d Hj. unfold times in Hj. rewrite nth_error_map in Hj. destruct (nth_error sc j) as [[b0 d0]|] eqn:Ej; inversion Hj; subst.
    destruct (M _ _ _ Ej) as (M1 & M2). cbn [snd]. split; [apply Rmult_le_compat_l; lra|]. intros L. apply Rmult_lt_compat_l; auto. }
  rewrite (first_min_unique _ _ _ F F') in E', Ei'. unfold times in Ei'. rewrite nth_error_map, Ei in Ei'. inversion Ei'; subst. exact E'.
Qed.
Lemma greedy_times : forall s eps (sc : list (N * R)), 0 < s -> sc <> [] -> @greedy_probs RF eps (times s sc) = @greedy_probs RF eps sc.
Proof.
  intros s eps sc Hs Ne. destruct (first_times s _ sc Hs gtR_total Ne) as (i & a & c & E & Ei & E').
  rewrite !greedy_eq, E, E'. cbn [bind fst]. unfold times. rewrite map_length, map_map. reflexivity.
Qed.
Lemma softmax_times : forall s dbg ue la (sc : list (N * R)), 0 < s -> sc <> [] ->
  @softmax_probs RF dbg ue ((la / s)%R : RF) (times s sc) = @softmax_probs RF dbg ue (la : RF) sc.
Proof.
  intros s dbg ue la sc Hs Ne. destruct (first_times s _ sc Hs gtR_partial Ne) as (i & a & c & E & Ei & E').
  rewrite !softmax_eq, E, E'. cbn [bind fst snd]. cbv zeta.
  assert (Q : map (fun x : N * R => (fst x, exp (- (la / s) * (snd x - s * c)))) (times s sc) = map (fun x : N * R => (fst x, exp (- la * (snd x - c)))) sc).
  { unfold times. rewrite map_map. apply map_ext. intros x. cbn [fst snd]. f_equal. f_equal. field. lra. }
  rewrite Q. reflexivity.
Qed.
Lemma fold_skip_best : forall (b : N) (g g' : N * R -> R) (l : list (N * R)) acc, (forall x, In x l -> fst x <> b -> g x = g' x) ->
  fold_left (fun acc (e : N * R) => if (fst e =? b)%N then acc else acc + snd e) (map (fun x => (fst x, g x)) l) acc =
  fold_left (fun acc (e : N * R) => if (fst e =? b)%N then acc else acc + snd e) (map (fun x => (fst x, g' x)) l) acc.
Proof.
  intros b g g' l. induction l as [|x l IH]; intros acc K; auto. cbn [map fold_left fst snd].
  destruct (N.eqb_spec (fst x) b) as [Eb|Nb]; [apply IH; intros; apply K; cbn; auto|].
  rewrite (K x (or_introl eq_refl) Nb). apply IH. intros. apply K; cbn; auto.
Qed.
Lemma square_times : forall s dbg ue gamma (sc : list (N * R)), 0 < s -> sc <> [] -> NoDup (map fst sc) ->
  @squarecb_probs RF dbg ue ((gamma / s)%R : RF) (times s sc) = @squarecb_probs RF dbg ue (gamma : RF) sc.
Proof.
  intros s dbg ue gamma sc Hs Ne Nd. destruct (first_times s _ sc Hs gtR_partial Ne) as (i & a & c & E & Ei & E').
  rewrite !squarecb_eq, E, E'. cbn [bind fst snd]. unfold times. rewrite map_length, map_map. cbn [fst snd]. cbv zeta.
  set (g := fun x : N * R => if (fst x =? a)%N then s * snd x else 1 / (INR (length sc) + gamma / s * (s * snd x - s * c))).
  set (g' := fun x : N * R => if (fst x =? a)%N then snd x else 1 / (INR (length sc) + gamma * (snd x - c))).
  change (map (fun x : N * R => (fst x, if (fst x =? a)%N then s * snd x else 1 / (INR (length sc) + gamma / s * (s * snd x - s * c)))) sc) with (map (fun x => (fst x, g x)) sc).
  change (map (fun s0 : N * R => (fst s0, if (fst s0 =? a)%N then snd s0 else 1 / (INR (length sc) + gamma * (snd s0 - c)))) sc) with (map (fun x => (fst x, g' x)) sc).
  assert (K : forall x, fst x <> a -> g x = g' x).
  { intros x Nx. unfold g, g'. destruct (N.eqb_spec (fst x) a) as [|_]; [contradiction|]. do 2 f_equal. field. lra. }
  rewrite (fold_skip_best a g g') by (intros; auto). rewrite Nat2N.id. rewrite !nth_error_map, Ei. cbn [option_map fst snd]. do 2 f_equal.
  set (v := (a, _)). apply nth_same. intros j. destruct (Nat.eq_dec j i) as [->|Nj].
  - assert (Li : (i < length sc)%nat) by (apply nth_error_Some; congruence).
    rewrite !nth_error_upd_eq by (rewrite map_length; auto). reflexivity.
  - rewrite !nth_error_upd_ne by auto. rewrite !nth_error_map. destruct (nth_error sc j) as [x|] eqn:Ej; auto. cbn [option_map]. rewrite K; auto.
    intros Ex. apply Nj. apply (proj1 (NoDup_nth_error (map fst sc)) Nd).
    + rewrite map_length. apply nth_error_Some. congruence.
    + rewrite !nth_error_map, Ej, Ei. cbn. now rewrite Ex.
Qed.

(** *** the whole stack *)
Lemma squarecb_counts : forall dbg n w w' ue ue' gs gs' ge ge' l l' c (r0 r0' : red RF n) r r', length l = length l' ->
  taught dbg ((w, KSquareCb ue gs ge c, r0) : red RF (S n)) l r -> taught dbg ((w', KSquareCb ue' gs' ge' c, r0') : red RF (S n)) l' r' ->
  exists c' r1 r1', r = ((w, KSquareCb ue gs ge c', r1) : red RF (S n)) /\ r' = ((w', KSquareCb ue' gs' ge' c', r1') : red RF (S n)) /\
    taught dbg r0 (map certain l) r1 /\ taught dbg r0' (map certain l') r1'.
Proof.
  intros dbg n w w' ue ue' gs gs' ge ge'. induction l as [|p l IH]; intros [|p' l'] c r0 r0' r r' Ln T T'; try discriminate.
  - inversion T; inversion T'; subst. do 3 eexists. repeat split; constructor.
  - inversion T as [|r1 p0 l0 r2 g r3 L T1]; subst. inversion T' as [|r1' p0' l0' r2' g' r3' L' T1']; subst.
    apply ws_learn_level in L. destruct L as (k1 & ch & L & ->). apply ws_learn_level in L'. destruct L' as (k1' & ch' & L' & ->).
    cbn [kind_learn] in L, L'.
    apply bind_ok in L. destruct L as (((a & co) & q) & E1 & L). apply bind_ok in L. destruct L as (((c1 & f1) & d1) & E2 & L). apply bind_ok in L. destruct L as (cn & E3 & L).
    apply bind_ok in L'. destruct L' as (((a' & co') & q') & E1' & L'). apply bind_ok in L'. destruct L' as (((c1' & f1') & d1') & E2' & L').
    rewrite E3 in L'. cbn [bind] in L'. inversion L; inversion L'; subst.
    destruct (IH l' cn ch ch' r r') as (c2 & r1 & r1' & -> & -> & T2 & T2'); auto.
    exists c2, r1, r1'. split; auto. split; auto.
    split; cbn [map]; (econstructor; [|eassumption]); unfold certain.
    + destruct (pt_label p); try discriminate. cbn [as_cb_label] in E1. inversion E1; subst. cbn [pt_feats pt_label]. apply ws_learn_ok. rewrite RF_f1 in E2. exact E2.
    + destruct (pt_label p'); try discriminate. cbn [as_cb_label] in E1'. inversion E1'; subst. cbn [pt_feats pt_label]. apply ws_learn_ok. rewrite RF_f1 in E2'. exact E2'.
Qed.
Lemma certain_scaled : forall s l, map certain (map (scaled_point s) l) = map (scaled_point s) (map certain l).
Proof.
  intros s l. rewrite !map_map. apply map_ext. intros p. unfold scaled_point, certain. destruct (pt_label p) eqn:E; cbn [pt_label pt_feats pt_pred]; rewrite ?E; reflexivity.
Qed.

Lemma policy_main : forall H dbg ty (cfg : coin_config RF) gc nma n (c0 c0' : coin RF) s k w1 w w0 w1' w' w0' l r r' f p p' g g', 0 < s ->
  coin_new H dbg cfg gc nma = Ok c0 -> coin_new H dbg (scaled_cfg s cfg) gc nma = Ok c0' ->
  (0 < nma < 2 ^ 8)%N -> bits_to_max_feature_index dbg (gc_bits gc) = Ok n -> cc_loss cfg = LossSquared ->
  match k with KGreedy _ | KSoftmax _ _ _ | KSquareCb _ _ _ _ => True | _ => False end ->
  countable l ->
  Forall (fun e => below n (ex_f e)) (match ty with Mtr => mtr_examples 0 0 (handed_down k l) | Ips => ips_examples (handed_down k l) end) ->
  Forall (below n) (seen_ips f) ->
  taught dbg ((w1, k, ((w, KCbAdf ty 0 0, (w0, c0)) : red RF 1)) : red RF 2) l r ->
  taught dbg ((w1', scaled_kind s k, ((w', KCbAdf ty 0 0, (w0', c0')) : red RF 1)) : red RF 2) (map (scaled_point s) l) r' ->
  ws_predict dbg r f = Ok (p, g) -> ws_predict dbg r' f = Ok (p', g') -> p' = p.
Proof.
  intros H dbg ty cfg gc nma n c0 c0' s k w1 w w0 w1' w' w0' l r r' f p p' g g' Hs E E' Hn Hb Hl Hk Cl Bh Bf T T' P P'.
  assert (Q : exists k1 q q', r = ((w1, k1, q) : red RF 2) /\ r' = ((w1', scaled_kind s k1, q') : red RF 2) /\
    match k1 with KGreedy _ | KSoftmax _ _ _ | KSquareCb _ _ _ _ => True | _ => False end /\
    taught dbg ((w, KCbAdf ty 0 0, (w0, c0)) : red RF 1) (handed_down k l) q /\
    taught dbg ((w', KCbAdf ty 0 0, (w0', c0')) : red RF 1) (map (scaled_point s) (handed_down k l)) q').
  { destruct k; try contradiction.
    - destruct (explorer_taught dbg 1 w1 (KGreedy eps) _ l r eq_refl T) as (q & -> & Tq).
      destruct (explorer_taught dbg 1 w1' (KGreedy eps) _ _ r' eq_refl T') as (q' & -> & Tq'). exists (KGreedy eps), q, q'. auto 6.
    - destruct (explorer_taught dbg 1 w1 (KSoftmax ueps lambda counter) _ l r eq_refl T) as (q & -> & Tq).
      destruct (explorer_taught dbg 1 w1' (KSoftmax ueps ((lambda / s)%R : RF) counter) _ _ r' eq_refl T') as (q' & -> & Tq').
      exists (KSoftmax ueps lambda counter), q, q'. auto 6.
    - cbn [scaled_kind] in T'. destruct (squarecb_counts dbg 1 w1 w1' _ _ _ _ _ _ l (map (scaled_point s) l) counter _ _ r r' (eq_sym (map_length _ _)) T T')
        as (c' & q & q' & -> & -> & Tq & Tq'). rewrite certain_scaled in Tq'. exists (KSquareCb ueps gscale gexp c'), q, q'. auto 6. }
  destruct Q as (k1 & q & q' & -> & -> & Hk1 & Tq & Tq').
  assert (Cl' : countable (handed_down k l)) by (destruct k; auto; now apply countable_certain).
  assert (Hk1' : match scaled_kind s k1 with KGreedy _ | KSoftmax _ _ _ | KSquareCb _ _ _ _ => True | _ => False end) by (destruct k1; auto).
  destruct (explore_policy dbg 1 w1 k1 q f p g Hk1 P) as (sc & probs & Ps & _ & Nd & -> & Po).
  destruct (explore_policy dbg 1 w1' _ q' f p' g' Hk1' P') as (sc' & probs' & Ps' & _ & _ & -> & Po').
  destruct (costs_main H dbg ty cfg gc nma n c0 c0' s w w0 w' w0' _ q q' f _ _ g g' (Rgt_not_eq _ _ Hs) E E' Hn Hb (or_introl Hl) Cl' Bh Bf Tq Tq' Ps Ps') as (z & Ez & Ez').
  inversion Ez; subst z. inversion Ez'; subst sc'. clear Ez Ez'. fold (times s sc) in Po'. f_equal.
  assert (Ne : sc <> []) by (intros ->; destruct k1; try contradiction; discriminate Po).
  destruct k1; try contradiction; cbn [scaled_kind] in Po'.
  - change (@greedy_probs RF eps (times s sc) = Ok probs') in Po'. rewrite greedy_times in Po' by auto. rewrite Po in Po'. now inversion Po'.
  - pose proof (softmax_times s dbg ueps lambda sc Hs Ne) as Q. rewrite <- Q in Po. rewrite Po in Po'. now inversion Po'.
  - pose proof (square_times s dbg ueps (@squarecb_gamma RF gscale gexp counter) sc Hs Ne Nd) as Q.
    assert (Eg : @squarecb_gamma RF ((gscale / s)%R : RF) gexp counter = ((@squarecb_gamma RF gscale gexp counter / s)%R : RF)).
    { unfold squarecb_gamma. cbn [f_mul RF]. match goal with |- @eq _ ?a ?b => change (@eq R a b) end. unfold Rdiv. ring. }
    rewrite Eg in Po'. rewrite <- Q in Po. rewrite Po in Po'. now inversion Po'.
Qed.
