(** A workspace that has not learned anything, in single precision (C101). *)
From Coq Require Import List NArith ZArith PeanoNat Bool Lia.
From Coq Require Import Floats.SpecFloat.
From Verif Require Import Base FloatOps FloatB32 Model_Hash Model_Features Model_Weights Model_Loss Model_Interactions
  Model_Types Model_Explore Model_Coin Model_Stack Model_Factory Spec_Coin Spec_Stack Spec_Reductions Spec_Built Spec_Alike Spec_Fresh
  Proof_Weights Proof_StackRestore Proof_StackShape Proof_StackProps Proof_StackRel Proof_Built Proof_Release Proof_Reductions Proof_Alike.
Import ListNotations.
Open Scope N_scope.

(** ** equal scores, in any arithmetic *)
Section Any.
Context {O : FOps}.
(** probabilities that are a function of what was there before *)
Definition pointwise (l r : list (N * O)) : Prop := exists g : O -> O, r = map (fun e => (fst e, g (snd e))) l.
Lemma enforce_pointwise : forall dbg eps consider (l r : list (N * O)), enforce_min_prob dbg eps consider l = Ok r -> pointwise l r.
Proof.
  intros dbg eps consider l r E. unfold enforce_min_prob in E. destruct l as [|e0 l0] eqn:Q; [discriminate|]. rewrite <- Q in *. clear Q.
  destruct (f_eqb O eps f0). { inversion E; subst. exists (fun x => x). rewrite <- (map_id r) at 1. apply map_ext. now intros (a & p). }
  destruct (f_ltb O eps f0 || f_gtb eps f1); [discriminate|]. destruct (f_gtb eps (lit_0999 O)).
  - inversion E; subst. eexists (fun p => if counts consider p then f_div O f1 (f_of_N (support_size consider l)) else p). apply map_ext. intros (a & p). cbn. now destruct (counts consider p).
  - binv E. binv E. binv E. inversion E; subst.
    match goal with |- pointwise _ (map (fun e => if _ then (_, f_max (f_sub O _ ?t) ?m) else _) _) => exists (fun p => if counts consider p then f_max (f_sub O p t) m else p) end.
    apply map_ext. intros (a & p). cbn. now destruct (counts consider p).
Qed.
Lemma pointwise_tied : forall (l r : list (N * O)) i j, pointwise l r -> tied l i j -> tied r i j.
Proof. intros l r i j (g & ->) (v & Ei & Ej). exists (g v). rewrite !nth_error_map, Ei, Ej. auto. Qed.
Lemma pointwise_comp : forall (l k r : list (N * O)), pointwise l k -> pointwise k r -> pointwise l r.
Proof. intros l k r (g & ->) (h & ->). exists (fun x => h (g x)). now rewrite map_map. Qed.
Lemma softmax_pointwise : forall dbg ueps la (sc q : list (N * O)), softmax_probs dbg ueps la sc = Ok q -> pointwise sc q.
Proof.
  intros dbg ueps la sc q E. unfold softmax_probs in E. binv E. unfold unwrap_res in E.
  match type of E with match ?X with _ => _ end = _ => destruct X as [r|?|?] eqn:Q; try discriminate end. inversion E; subst.
  apply enforce_pointwise in Q. rewrite map_map in Q. cbn [fst snd] in Q. eapply pointwise_comp; [|exact Q].
  match goal with |- pointwise _ (map (fun x => (_, f_div O (f_exp O (f_mul O ?a (f_sub O _ ?b))) ?t)) _) => exists (fun x => f_div O (f_exp O (f_mul O a (f_sub O x b))) t) end. reflexivity.
Qed.
Lemma softmax_any : forall dbg n w ueps la x (ch : red O n) f sc g q f', ws_predict dbg ch f = Ok (PrScores sc, g) ->
  ws_predict dbg ((w, KSoftmax ueps la x, ch) : red O (S n)) f = Ok (PrProbs q, f') -> forall i j, tied sc i j -> tied q i j.
Proof.
  intros dbg n w ueps la x ch f sc g q f' P Q i j T. destruct (explore_policy dbg n w (KSoftmax ueps la x) ch f _ f' Logic.I Q) as (sc' & q' & P' & _ & _ & Eq & Pol).
  rewrite P in P'. inversion P'; subst sc'. inversion Eq; subst q'. eapply pointwise_tied; [eapply softmax_pointwise; exact Pol|exact T].
Qed.
Lemma min_by_first : forall (gt : O -> O -> out bool) v l (x : N * (N * O)), gt v v = Ok false -> snd (snd x) = v -> (forall y, In y l -> snd (snd y) = v) -> min_by_from gt x l = Ok x.
Proof.
  intros gt v l. induction l as [|y l IH]; intros x G Hx Hl; [reflexivity|]. cbn [min_by_from]. rewrite Hx, (Hl y (or_introl eq_refl)), G. cbn [bind].
  apply IH; auto. intros z Hz. apply Hl. now right.
Qed.
Lemma min_by_zeros : forall (gt : O -> O -> out bool) n, gt f0 f0 = Ok false -> min_by gt (zeros (S n) : list (N * O)) = Ok (0, (0, f0)).
Proof.
  intros gt n G. unfold min_by, zeros. cbn [seq map enum_from]. apply (min_by_first gt f0); auto.
  intros y Hy. assert (K : forall (l : list (N * O)) i, (forall e, In e l -> snd e = f0) -> forall z, In z (enum_from i l) -> snd (snd z) = f0).
  { clear. induction l as [|e l IH]; intros i Hl z Hz; [contradiction|]. cbn in Hz. destruct Hz as [<-|Hz]; [apply Hl; now left|]. eapply IH; eauto. intros; apply Hl; now right. }
  eapply K; [|exact Hy]. intros e He. apply in_map_iff in He. destruct He as (k & <- & _). reflexivity.
Qed.
Lemma zeros_nth : forall n i, (i < n)%nat -> nth_error (zeros n : list (N * O)) i = Some (N.of_nat i, f0).
Proof. intros n i Hi. unfold zeros. rewrite nth_error_map, (nth_error_nth' _ 0%nat) by (now rewrite seq_length). now rewrite seq_nth. Qed.
Lemma zeros_len : forall n, length (zeros n : list (N * O)) = n.
Proof. intros n. unfold zeros. now rewrite map_length, seq_length. Qed.
Lemma zeros_tied : forall n i j, (i < n)%nat -> (j < n)%nat -> tied (zeros n : list (N * O)) i j.
Proof. intros n i j Hi Hj. exists f0. now rewrite !zeros_nth. Qed.
Lemma greedy_zeros : forall (eps : O) n q, f_gtb (f0 : O) f0 = false -> greedy_probs eps (zeros n) = Ok q -> (0 < n)%nat /\ q = greedy_start eps n.
Proof.
  intros eps [|n] q G E; [discriminate|]. split; [lia|]. unfold greedy_probs in E. rewrite min_by_zeros in E by (unfold gt_total; now rewrite G).
  cbn [bind fst] in E. rewrite zeros_len in E. set (k := f_div O eps (f_of_nat (S n))) in *. unfold zeros, greedy_start in *. fold k.
  rewrite map_map in E. cbn [seq map fst snd nth_error N.to_nat upd] in E |- *. inversion E; subst. f_equal. rewrite <- seq_shift, !map_map. reflexivity.
Qed.
Lemma squarecb_zeros : forall dbg (ueps gamma : O) n q, gt_partial (f0 : O) f0 = Ok false -> squarecb_probs dbg ueps gamma (zeros n) = Ok q ->
  forall i j, (0 < i < n)%nat -> (0 < j < n)%nat -> tied q i j.
Proof.
  intros dbg ueps gamma [|n] q G E i j Hi Hj; [lia|]. unfold squarecb_probs in E. rewrite min_by_zeros in E by exact G. cbn [bind] in E.
  match type of E with match nth_error ?L _ with _ => _ end = _ => set (l := L) in * end.
  destruct (nth_error l (N.to_nat 0)) as [s|]; [|discriminate]. unfold unwrap_res in E.
  match type of E with match ?X with _ => _ end = _ => destruct X as [r|?|?] eqn:Q; try discriminate end. inversion E; subst.
  apply enforce_pointwise in Q. eapply pointwise_tied; [exact Q|]. change (N.to_nat 0) with 0%nat.
  assert (K : forall k, (0 < k < S n)%nat -> nth_error l k = Some (N.of_nat k, f_div O f1 (f_add O (f_of_nat (length (zeros (S n) : list (N * O)))) (f_mul O gamma (f_sub O f0 f0))))).
  { intros k Hk. unfold l. rewrite nth_error_map, zeros_nth by lia. cbn [option_map fst snd]. destruct (N.eqb_spec (N.of_nat k) 0); [lia|reflexivity]. }
  eexists. rewrite !nth_error_upd_ne by lia. rewrite (K i Hi), (K j Hj). auto.
Qed.
End Any.

(** ** single precision *)
Section Single.
Context (ex lx : b32 -> b32) (px : b32 -> b32 -> b32).
Notation O := (BF ex lx px).
Definition zeroed (p : prediction O) : Prop :=
  match p with
  | PrScalar _ y => y = @f0 O
  | PrScores l => forall a s, In (a, s) l -> s = @f0 O
  | _ => True
  end.
Definition zn (x : b32) : Prop := x = S754_zero false \/ x = S754_nan.
Lemma zn_step : forall x v, zn x -> zn (b_add x (b_mul v (S754_zero false))).
Proof. intros x v [-> | ->]; destruct v as [s|s| |s m e]; cbn; try destruct s; cbn; (now left) || (now right). Qed.
Lemma zero_dot : forall dbg (c : coin O) l x y, Forall (eq (@f0 O)) (dw_w (co_w c)) -> zn x ->
  foldm (fun acc iv => let* w := dw_weight_at dbg (co_w c) (fst iv) 0 in Ok (f_add O acc (f_mul O (snd iv) w))) l x = Ok y -> zn y.
Proof.
  intros dbg c l. induction l as [|(i & v) l IH]; intros x y Z Hx E; cbn [foldm] in E; [inversion E; now subst|].
  binv E. binv B. assert (v1 = @f0 O).
  { unfold dw_weight_at in B0. binv B0. destruct (nth_error (dw_w (co_w c)) (N.to_nat v2)) as [w|] eqn:Q; [|discriminate]. inversion B0; subst.
    apply nth_error_In in Q. rewrite Forall_forall in Z. symmetry. exact (Z _ Q). }
  subst v1. inversion B; subst. eapply IH; [exact Z| |exact E]. exact (zn_step x v Hx).
Qed.
Lemma zero_loop : forall dbg (child : features O -> N -> N -> out (pres O (prediction O))) sh,
  (forall f d mo p f' d', child f d mo = Ok (p, f', d') -> zeroed p) ->
  forall x i d sc acts d', cb_predict_loop dbg child sh x i d = Ok (sc, acts, d') -> zeroed (PrScores sc).
Proof.
  intros dbg child sh C. induction x as [|a x IH]; intros i d sc acts d' E; cbn [cb_predict_loop] in E.
  - inversion E; subst. intros b s [].
  - binv E. binv E. destruct v0 as ((p & f') & d1). binv E. binv E. binv E. destruct v2 as ((sc' & acts') & d2). inversion E; subst.
    intros b s [K|K]; [|eapply IH; eauto]. inversion K; subst. apply C in B0. destruct p; try discriminate. inversion B1; subst. exact B0.
Qed.
Lemma zero_predict : forall dbg n (r : red O n) f d mo p f' d', untrained n r -> predict dbg n r f d mo = Ok (p, f', d') -> zeroed p.
Proof.
  induction n as [|n IH]; intros r f d mo p f' d' U E.
  - cbn [predict] in E. apply wrap_ok in E. destruct E as (d1 & d2 & E). unfold coin_predict_body in E. binv E. binv E. inversion E; subst.
    unfold coin_predict in B0. binv B0. binv B0. binv B0. inversion B0; subst. cbn [zeroed].
    destruct (zero_dot dbg (snd r) _ _ _ (proj1 U) (or_introl eq_refl) B2) as [-> | ->]; reflexivity.
  - destruct r as ((w & k) & ch). destruct U as (_ & U). cbn [snd] in U. cbn [predict] in E. apply wrap_ok in E. destruct E as (d1 & d2 & E). destruct k; cbn [kind_predict] in E.
    + binv E. destruct v as ((p1 & g) & e). binv E. inversion E; subst. exact Logic.I.
    + binv E. binv E. destruct v0 as ((sc & acts) & e). inversion E; subst. eapply zero_loop; [|exact B0]. intros; eapply IH; eauto.
    + binv E. destruct v as ((p1 & g) & e). binv E. binv E. inversion E; subst. exact Logic.I.
    + binv E. destruct v as ((p1 & g) & e). binv E. binv E. inversion E; subst. exact Logic.I.
    + binv E. destruct v as ((p1 & g) & e). binv E. binv E. inversion E; subst. exact Logic.I.
    + apply elem_frame_inv in E. destruct E as (g & g' & E). eapply IH; eauto.
    + eapply IH; eauto.
Qed.
Lemma zero_ws : forall dbg n (r : red O n) f p f', untrained n r -> ws_predict dbg r f = Ok (p, f') -> zeroed p.
Proof. intros dbg n r f p f' U E. unfold ws_predict in E. binv E. destruct v as ((p1 & f1) & d1). inversion E; subst. exact (zero_predict _ _ _ _ _ _ _ _ _ U B). Qed.
Lemma fresh_scalar : forall H dbg gc (c : rcfg O) R0 f y v f', ws_new H dbg gc c = Ok R0 -> ws_predict dbg (projT2 R0) f = Ok (PrScalar y v, f') -> v = @f0 O.
Proof. intros H dbg gc c R0 f y v f' E P. exact (zero_ws _ _ _ _ _ _ (new_untrained _ _ _ _ _ E) P). Qed.
Lemma zero_scores : forall dbg n (r : red O n) s acts sc f', untrained n r -> ws_predict dbg r (FtsCb s acts) = Ok (PrScores sc, f') -> sc = zeros (length acts).
Proof.
  intros dbg n r s acts sc f' U P. pose proof (zero_ws _ _ _ _ _ _ U P) as Z. assert (Ln : length sc = length acts).
  { unfold ws_predict in P. binv P. destruct v as ((p1 & f1) & d1). inversion P; subst. exact (scores_length _ _ _ _ _ _ _ _ _ _ _ B). }
  assert (K : forall i, (i < length acts)%nat -> nth_error sc i = Some (N.of_nat i, @f0 O)).
  { intros i Hi. destruct (nth_error acts i) as [b|] eqn:Q; [|apply nth_error_None in Q; lia].
    destruct (same_action O dbg n r s acts i i b sc f' Q Q P) as (v & V & _). rewrite V. do 2 f_equal. apply nth_error_In in V. exact (Z _ _ V). }
  apply nth_ext with (d := (0, @f0 O)) (d' := (0, @f0 O)); [now rewrite zeros_len|].
  intros i Hi. rewrite Ln in Hi. rewrite (nth_error_nth _ _ _ (K i Hi)), (nth_error_nth _ _ _ (zeros_nth (O := O) _ _ Hi)). reflexivity.
Qed.
Lemma fresh_scores : forall H dbg gc (c : rcfg O) R0 s acts sc f', ws_new H dbg gc c = Ok R0 ->
  ws_predict dbg (projT2 R0) (FtsCb s acts) = Ok (PrScores sc, f') -> sc = zeros (length acts).
Proof. intros H dbg gc c R0 s acts sc f' E. exact (zero_scores _ _ _ _ _ _ _ (new_untrained _ _ _ _ _ E)). Qed.
Lemma fresh_policy : forall H dbg gc (c : rcfg O) R0 s acts p f', ws_new H dbg gc c = Ok R0 ->
  match c with CGreedy _ _ | CSoftmax _ _ _ | CSquareCb _ _ _ _ => True | _ => False end ->
  ws_predict dbg (projT2 R0) (FtsCb s acts) = Ok (p, f') -> exists q, p = PrProbs q /\ policy dbg c 0 (zeros (length acts)) = Ok q.
Proof.
  intros H dbg gc c R0 s acts p f' E Hc P. pose proof (new_untrained _ _ _ _ _ E) as U.
  pose proof (create_follows _ _ _ _ _ _ E) as Fo. revert U Fo P. generalize (projT2 R0). generalize (projT1 R0). intros m r U Fo P.
  destruct Fo; try contradiction; destruct U as (Kn & U); cbn [fst snd kind_new] in Kn, U.
  - destruct (explore_policy dbg n w (KGreedy eps) ch _ _ _ Logic.I P) as (sc & q & Ps & _ & _ & -> & Pol). rewrite (zero_scores _ _ _ _ _ _ _ U Ps) in Pol. eauto.
  - destruct (explore_policy dbg n w (KSoftmax ue la x) ch _ _ _ Logic.I P) as (sc & q & Ps & _ & _ & -> & Pol). rewrite (zero_scores _ _ _ _ _ _ _ U Ps) in Pol. eauto.
  - destruct (explore_policy dbg n w (KSquareCb ue gs ge x) ch _ _ _ Logic.I P) as (sc & q & Ps & _ & _ & -> & Pol). rewrite (zero_scores _ _ _ _ _ _ _ U Ps) in Pol. subst x. eauto.
Qed.
Lemma fresh_greedy : forall H dbg gc eps (c : rcfg O) R0 s acts p f', ws_new H dbg gc (CGreedy eps c) = Ok R0 ->
  ws_predict dbg (projT2 R0) (FtsCb s acts) = Ok (p, f') -> p = PrProbs (greedy_start eps (length acts)).
Proof.
  intros H dbg gc eps c R0 s acts p f' E P. destruct (fresh_policy _ _ _ _ _ _ _ _ _ E Logic.I P) as (q & -> & Pol). cbn [policy] in Pol.
  now destruct (greedy_zeros (O := O) eps _ q eq_refl Pol) as (_ & ->).
Qed.
Lemma fresh_softmax : forall H dbg gc ueps la (c : rcfg O) R0 s acts p f', ws_new H dbg gc (CSoftmax ueps la c) = Ok R0 ->
  ws_predict dbg (projT2 R0) (FtsCb s acts) = Ok (p, f') -> exists q, p = PrProbs q /\ forall i j, (i < length acts)%nat -> (j < length acts)%nat -> tied q i j.
Proof.
  intros H dbg gc ueps la c R0 s acts p f' E P. destruct (fresh_policy _ _ _ _ _ _ _ _ _ E Logic.I P) as (q & -> & Pol). cbn [policy] in Pol.
  exists q. split; [reflexivity|]. intros i j Hi Hj. exact (pointwise_tied _ _ i j (softmax_pointwise _ _ _ _ _ Pol) (zeros_tied _ _ _ Hi Hj)).
Qed.
Lemma fresh_squarecb : forall H dbg gc ueps gs ge (c : rcfg O) R0 s acts p f', ws_new H dbg gc (CSquareCb ueps gs ge c) = Ok R0 ->
  ws_predict dbg (projT2 R0) (FtsCb s acts) = Ok (p, f') -> exists q, p = PrProbs q /\ forall i j, (0 < i < length acts)%nat -> (0 < j < length acts)%nat -> tied q i j.
Proof.
  intros H dbg gc ueps gs ge c R0 s acts p f' E P. destruct (fresh_policy _ _ _ _ _ _ _ _ _ E Logic.I P) as (q & -> & Pol). cbn [policy] in Pol.
  exists q. split; [reflexivity|]. exact (squarecb_zeros (O := O) dbg _ _ _ q eq_refl Pol).
Qed.

(** ** the value after clipping and link *)
Definition clean (c : coin O) : Prop := f_clamp (@f0 O) (co_min c) (co_max c) = Ok (@f0 O).
Lemma create_clean : forall H dbg gc nma (c : rcfg O) R0, create H dbg gc nma c = Ok R0 -> clean (bottom _ (projT2 R0)).
Proof.
  intros H dbg gc nma. induction c; intros R0 E; try (apply square_cases in E); try (cbn [create] in E); try discriminate.
  1:{ binv E. inversion E; subst. cbn [projT1 projT2 bottom snd]. unfold coin_new in B. binv B. destruct (cc_loss cfg).
    all: binv B; binv B; inversion B; subst; unfold clean; cbn [co_min co_max]; vm_compute; reflexivity. }
  all: binv E; apply add_level_ok in E; destruct E as (-> & _); cbn [projT1 projT2 bottom fst snd]; auto.
Qed.
Lemma follows_link : forall H gc (c : rcfg O) n (r : red O n), follows H gc c n r -> cc_link (co_cfg (bottom n r)) = link_of c.
Proof. intros H gc c n r Fo. induction Fo; cbn [bottom snd link_of]; auto. now rewrite H0. Qed.
Definition told (k : link) (p : prediction O) : Prop :=
  match p with
  | PrScalar y _ => y = link_fun (O := O) k f0
  | PrBinary b => b = f_gtb (link_fun (O := O) k f0) f0
  | _ => True
  end.
Lemma told_predict : forall dbg n (r : red O n) f d mo p f' d', untrained n r -> clean (bottom n r) -> predict dbg n r f d mo = Ok (p, f', d') -> told (cc_link (co_cfg (bottom n r))) p.
Proof.
  induction n as [|n IH]; intros r f d mo p f' d' U Cl E.
  - cbn [predict] in E. apply wrap_ok in E. destruct E as (d1 & d2 & E). unfold coin_predict_body in E. binv E. binv E. inversion E; subst.
    unfold coin_predict in B0. binv B0. binv B0. binv B0. inversion B0; subst. cbn [told bottom snd]. f_equal.
    unfold clean in Cl. cbn [bottom] in Cl. assert (K : f_clamp (@f0 O) (co_min (snd r)) (co_max (snd r)) = Ok v2).
    { destruct (zero_dot dbg (snd r) _ _ _ (proj1 U) (or_introl eq_refl) B2) as [-> | ->]; exact B3. }
    rewrite Cl in K. now inversion K.
  - destruct r as ((w & k) & ch). destruct U as (_ & U). cbn [snd bottom] in U, Cl |- *. cbn [predict] in E. apply wrap_ok in E. destruct E as (d1 & d2 & E). destruct k; cbn [kind_predict] in E.
    + binv E. destruct v as ((p1 & g) & e). binv E. inversion E; subst. pose proof (IH _ _ _ _ _ _ _ U Cl B) as T. destruct p1; try discriminate. inversion B0; subst. cbn [told fst] in *. now rewrite T.
    + binv E. binv E. destruct v0 as ((sc & acts) & e). inversion E; subst. exact Logic.I.
    + binv E. destruct v as ((p1 & g) & e). binv E. binv E. inversion E; subst. exact Logic.I.
    + binv E. destruct v as ((p1 & g) & e). binv E. binv E. inversion E; subst. exact Logic.I.
    + binv E. destruct v as ((p1 & g) & e). binv E. binv E. inversion E; subst. exact Logic.I.
    + apply elem_frame_inv in E. destruct E as (g & g' & E). eapply IH; eauto.
    + eapply IH; eauto.
Qed.
Lemma fresh_told : forall H dbg gc (c : rcfg O) R0 f p f', ws_new H dbg gc c = Ok R0 -> ws_predict dbg (projT2 R0) f = Ok (p, f') -> told (link_of c) p.
Proof.
  intros H dbg gc c R0 f p f' E P. rewrite <- (follows_link _ _ _ _ _ (create_follows _ _ _ _ _ _ E)). unfold ws_predict in P. binv P. destruct v as ((p1 & f1) & d1). inversion P; subst.
  exact (told_predict _ _ _ _ _ _ _ _ _ (new_untrained _ _ _ _ _ E) (create_clean _ _ _ _ _ _ E) B).
Qed.
Lemma fresh_identity : forall H dbg gc (c : rcfg O) R0 f p f', ws_new H dbg gc c = Ok R0 -> link_of c = LinkIdentity -> ws_predict dbg (projT2 R0) f = Ok (p, f') ->
  match p with PrScalar y _ => y = S754_zero false | PrBinary b => b = false | _ => True end.
Proof. intros H dbg gc c R0 f p f' E L P. pose proof (fresh_told _ _ _ _ _ _ _ _ E P) as T. rewrite L in T. destruct p; cbn [told] in T; auto; rewrite T; reflexivity. Qed.
Lemma fresh_logistic : forall H dbg gc (c : rcfg O) R0 f p f', ws_new H dbg gc c = Ok R0 -> link_of c = LinkLogistic -> ex (S754_zero true) = b_of_Z 1 -> ws_predict dbg (projT2 R0) f = Ok (p, f') ->
  match p with PrScalar y _ => y = S754_finite false 8388608 (-24) | PrBinary b => b = true | _ => True end.
Proof.
  intros H dbg gc c R0 f p f' E L X P. pose proof (fresh_told _ _ _ _ _ _ _ _ E P) as T. rewrite L in T.
  assert (K : link_fun (O := O) LinkLogistic f0 = S754_finite false 8388608 (-24)) by (cbn [link_fun]; change (f_exp O (f_neg O f0)) with (ex (S754_zero true)); rewrite X; vm_compute; reflexivity).
  destruct p; cbn [told] in T; auto; rewrite K in T; rewrite T; reflexivity.
Qed.
End Single.
