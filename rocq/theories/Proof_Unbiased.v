(** C83. *)
From Coq Require Import List NArith ZArith Bool Lia Reals Lra Permutation.
From Verif Require Import Base FloatOps FloatR Model_Hash Model_Features Model_Weights Model_Types Model_Explore
  Model_Coin Model_Stack Spec_Coin Spec_Explore Spec_Reductions Spec_Metrics Spec_OffPolicy Spec_Unbiased
  Proof_StackCong Proof_StackRestore Proof_StackProps Proof_Reductions Proof_OffPolicy.
Import ListNotations.
Open Scope R_scope.

(** ** what the child is given *)
Lemma mtr_fed : forall dbg n w l x y (ch : red RF n) r, taught dbg ((w, KCbAdf Mtr x y, ch) : red RF (S n)) l r ->
  (y + N.of_nat (length l) < u64_mod)%N ->
  (x + fold_right (fun p acc => num_actions (pt_feats p) + acc) 0 l < u64_mod)%N ->
  exists k ch', r = (w, k, ch') /\ fed dbg ch (mtr_examples y x l) ch'.
Proof.
  induction l as [|p l IH]; intros x y ch r T Hy Hx.
  - inversion T; subst. do 2 eexists. split; [reflexivity|constructor].
  - inversion T as [|r0 p0 l0 r1 g r' L T']; subst. cbn [length fold_right] in Hx, Hy.
    apply cb_mtr_step in L.
    destruct L as (x' & y' & ch1 & -> & Ex & Ey & s & acts & action & cost & prob & a & s1 & g1 & Ef & El & Ea & Es & Lc).
    rewrite Ex in * by lia. rewrite Ey in * by lia.
    destruct (IH _ _ _ _ T') as (k & ch' & -> & Fd); try lia.
    do 2 eexists. split; [reflexivity|]. cbn [mtr_examples]. rewrite El. cbn [app].
    econstructor; [|exact Fd]. cbn [ex_f ex_y ex_w]. rewrite Ef in *. cbn [seen_mtr].
    assert (En : nth (N.to_nat action) (map (fun a => joined_to s a) acts) [] = s1).
    { apply nth_error_nth. rewrite nth_error_map, Ea. cbn [option_map]. unfold joined_to. now rewrite Es. }
    rewrite En. rewrite !RF_of_N in Lc. rewrite RF_f1 in Lc. cbn [f_mul f_div RF] in Lc.
    replace (/ prob) with (1 / prob) by (unfold Rdiv; ring). exact Lc.
Qed.

Lemma ips_seq_fed : forall dbg n action (cost prob : R) shared acts i (ch ch' : red RF n) tail ch'',
  ips_seq dbg action (cost : RF) prob shared i acts ch ch' -> fed dbg ch' tail ch'' ->
  fed dbg ch (ips_round action (cost / prob) i (match shared with Some s => map (fun a => joined_to a s) acts | None => acts end) ++ tail) ch''.
Proof.
  intros dbg n action cost prob shared acts. induction acts as [|a acts IH]; intros i ch ch' tail ch'' Q Ft.
  - inversion Q; subst. destruct shared; exact Ft.
  - inversion Q as [|i0 a0 r0 c0 a1 g ch1 c1 Ha L Q']; subst. specialize (IH _ _ _ _ _ Q' Ft).
    rewrite RF_f0, RF_f1 in L. cbn [f_div RF] in L.
    destruct shared as [s|]; cbn [map ips_round app].
    + econstructor; [|exact IH]. cbn [ex_f ex_y ex_w]. unfold joined_to. rewrite Ha. exact L.
    + subst a1. econstructor; [|exact IH]. cbn [ex_f ex_y ex_w]. exact L.
Qed.

Lemma ips_fed : forall dbg n w l x y (ch : red RF n) r, taught dbg ((w, KCbAdf Ips x y, ch) : red RF (S n)) l r ->
  exists ch', r = (w, KCbAdf Ips x y, ch') /\ fed dbg ch (ips_examples l) ch'.
Proof.
  induction l as [|p l IH]; intros x y ch r T.
  - inversion T; subst. eexists. split; [reflexivity|constructor].
  - inversion T as [|r0 p0 l0 r1 g r' L T']; subst.
    assert (Ec : exists shared acts, pt_feats p = FtsCb shared acts).
    { apply ws_learn_level in L. destruct L as (k' & c' & L & _). cbn [kind_learn] in L. binv L.
      destruct (pt_feats p); try discriminate. eauto. }
    assert (El : exists a c q, pt_label p = LbCb a c q).
    { apply ws_learn_level in L. destruct L as (k' & c' & L & _). cbn [kind_learn] in L. binv L. binv L.
      destruct (pt_label p); try discriminate. eauto. }
    destruct Ec as (shared & acts & Ef). destruct El as (a & c & q & El). rewrite Ef, El in L.
    apply cb_ips_learn in L. destruct L as (ch1 & -> & Q).
    destruct (IH _ _ _ _ T') as (ch' & -> & Fd). eexists. split; [reflexivity|].
    cbn [ips_examples]. rewrite El, Ef.
    replace (seen_ips (FtsCb shared acts)) with (match shared with Some s => map (fun a => joined_to a s) acts | None => acts end)
      by (destruct shared; reflexivity).
    eapply ips_seq_fed; eauto.
Qed.

(** explorers hand the log down; SquareCB with probability 1 *)
Definition explorer (k : kind RF) : bool := match k with KGreedy _ | KSoftmax _ _ _ | KDebug => true | _ => false end.
Lemma explorer_taught : forall dbg n w k (r0 : red RF n) l r, explorer k = true ->
  taught dbg ((w, k, r0) : red RF (S n)) l r -> exists r', r = (w, k, r') /\ taught dbg r0 l r'.
Proof.
  intros dbg n w k r0 l r K. revert r0. induction l as [|p l IH]; intros r0 T.
  - inversion T; subst. eexists. split; [reflexivity|constructor].
  - inversion T as [|r1 p0 l0 r2 g r3 L T']; subst. apply ws_learn_level in L. destruct L as (k' & c' & L & ->).
    destruct k; try discriminate K; cbn [kind_learn] in L; binv L; destruct v as ((c1 & f1) & d1); inversion L; subst;
      destruct (IH _ T') as (r' & -> & T2); eexists; (split; [reflexivity|]);
      (econstructor; [apply ws_learn_ok; exact B|exact T2]).
Qed.
Lemma squarecb_taught : forall dbg n w ue gs ge l c (r0 : red RF n) r,
  taught dbg ((w, KSquareCb ue gs ge c, r0) : red RF (S n)) l r ->
  exists c' r', r = (w, KSquareCb ue gs ge c', r') /\ taught dbg r0 (map certain l) r'.
Proof.
  intros dbg n w ue gs ge. induction l as [|p l IH]; intros c r0 r T.
  - inversion T; subst. do 2 eexists. split; [reflexivity|constructor].
  - inversion T as [|r1 p0 l0 r2 g r3 L T']; subst. apply ws_learn_level in L. destruct L as (k' & c' & L & ->).
    cbn [kind_learn] in L. apply bind_ok in L. destruct L as (((a & co) & q) & E1 & L).
    apply bind_ok in L. destruct L as (((c1 & f1) & d1) & E2 & L). apply bind_ok in L. destruct L as (cn & E3 & L).
    inversion L; subst. destruct (IH _ _ _ T') as (c2 & r' & -> & T2). do 2 eexists. split; [reflexivity|].
    cbn [map]. econstructor; [|exact T2]. unfold certain. destruct (pt_label p); try discriminate.
    cbn [as_cb_label] in E1. inversion E1; subst. cbn [pt_feats pt_label]. apply ws_learn_ok.
    rewrite RF_f1 in E2. exact E2.
Qed.

(** ** means *)
Section Mean.
Variables (St : Type) (step : St -> features RF -> St) (v : St -> point RF -> R) (V : St -> list (point RF) -> R).
Hypothesis V0 : forall s, V s [] = 0.
Hypothesis V1 : forall s p l, V s (p :: l) = v s p + V (step s (pt_feats p)) l.

Fixpoint tot (s : St) (g : game) : R :=
  match g with
  | Over => 0
  | Round f logging cost pred next =>
      fold_right (fun e acc => snd e * v s (mkPt f (LbCb (fst e) (cost (fst e)) (snd e)) (PrProbs pred)) + acc) 0 logging
      + fold_right (fun e acc => snd e * tot (step s f) (next (fst e)) + acc) 0 logging
  end.

Lemma mean_tot : forall sh g k m, covered sh k m g -> forall s c, mean_over g (fun l => c + V s l) = c + tot s g.
Proof.
  induction 1 as [k m|k m f logging cost pred next Hp Ht Nd Cov Hk Hm Hf Hn IH]; intros s c; cbn [mean_over tot]; [rewrite V0; lra|].
  assert (G : forall r, incl r logging ->
    fold_right (fun e acc => snd e * mean_over (next (fst e)) (fun l => c + V s (mkPt f (LbCb (fst e) (cost (fst e)) (snd e)) (PrProbs pred) :: l)) + acc) 0 r
    = c * total r + fold_right (fun e acc => snd e * v s (mkPt f (LbCb (fst e) (cost (fst e)) (snd e)) (PrProbs pred)) + acc) 0 r
      + fold_right (fun e acc => snd e * tot (step s f) (next (fst e)) + acc) 0 r).
  { induction r as [|[a q] r IHr]; intros I; cbn [fold_right total fst snd]; [lra|].
    rewrite IHr by (intros z Hz; apply I; now right).
    assert (Ha : In a (map fst logging)) by (apply in_map_iff; exists (a, q); split; auto; apply I; now left).
    assert (E : mean_over (next a) (fun l => c + V s (mkPt f (LbCb a (cost a) q) (PrProbs pred) :: l)) =
                mean_over (next a) (fun l => (c + v s (mkPt f (LbCb a (cost a) q) (PrProbs pred))) + V (step s f) l)).
    { apply Proof_OffPolicy.mean_ext. intros l. rewrite V1. cbn [pt_feats]. lra. }
    rewrite E, (IH a Ha). lra. }
  rewrite (G logging (incl_refl _)), Ht. lra.
Qed.
End Mean.

Lemma wl_app : forall P a b, weighted_loss P (a ++ b) = weighted_loss P a + weighted_loss P b.
Proof. induction a as [|e a IH]; intros b; simpl; [lra|]. rewrite IH. lra. Qed.

(** sums over the actions *)
Definition sumN (f : N -> R) (l : list N) : R := fold_right (fun a acc => f a + acc) 0 l.
Lemma sumN_perm : forall f a b, Permutation a b -> sumN f a = sumN f b.
Proof. unfold sumN. induction 1; simpl; lra. Qed.
Fixpoint upfrom (i : N) (n : nat) : list N := match n with 0%nat => [] | S n => i :: upfrom (i + 1) n end.
Lemma upfrom_in : forall n i a, In a (upfrom i n) <-> (i <= a < i + N.of_nat n)%N.
Proof.
  induction n as [|n IH]; intros i a; cbn [upfrom In]; [lia|]. rewrite IH. lia.
Qed.
Lemma upfrom_nodup : forall n i, NoDup (upfrom i n).
Proof. induction n; intros i; cbn [upfrom]; constructor; auto. rewrite upfrom_in. lia. Qed.

Lemma sum_actions : forall (f : N -> R) (logging : list (N * R)) n, NoDup (map fst logging) ->
  (forall a, In a (map fst logging) <-> (a < N.of_nat n)%N) ->
  sumN f (map fst logging) = sumN f (upfrom 0 n).
Proof.
  intros f logging n Nd H. apply sumN_perm. apply NoDup_Permutation; auto using upfrom_nodup.
  intros a. rewrite H, upfrom_in. lia.
Qed.

Lemma all_loss_sum : forall P cost xs i pre, i = N.of_nat (length pre) ->
  all_loss P cost i xs =
  sumN (fun a => (P (nth (N.to_nat a) (pre ++ xs) []) - cost a) * (P (nth (N.to_nat a) (pre ++ xs) []) - cost a)) (upfrom i (length xs)).
Proof.
  induction xs as [|x xs IH]; intros i pre Hi; cbn [all_loss upfrom length sumN fold_right]; auto.
  rewrite (IH (i + 1)%N (pre ++ [x])) by (rewrite app_length; cbn [length]; lia). rewrite <- app_assoc. cbn [app].
  replace (nth (N.to_nat i) (pre ++ x :: xs) []) with x; [reflexivity|].
  rewrite app_nth2 by lia. replace (N.to_nat i - length pre)%nat with 0%nat by lia. reflexivity.
Qed.

Lemma seen_mtr_length : forall f, match f with FtsCb (Some _) _ => True | _ => False end ->
  N.of_nat (length (seen_mtr f)) = num_actions f.
Proof. intros [|[s|] acts] H; try contradiction. cbn. now rewrite map_length. Qed.
Lemma seen_ips_length : forall f, match f with FtsCb _ _ => True | _ => False end ->
  N.of_nat (length (seen_ips f)) = num_actions f.
Proof. intros [|[s|] acts] H; try contradiction; cbn; now rewrite ?map_length. Qed.

(** ** mtr *)
Definition mtr_v (P : sfeats RF -> R) (s : N * N) (p : point RF) : R :=
  match pt_label p with
  | LbCb a c q => / q * per_action (fst s + 1) (snd s + num_actions (pt_feats p)) *
      ((P (nth (N.to_nat a) (seen_mtr (pt_feats p)) []) - c) * (P (nth (N.to_nat a) (seen_mtr (pt_feats p)) []) - c))
  | _ => 0
  end.
Definition mtr_step (s : N * N) (f : features RF) : N * N := (fst s + 1, snd s + num_actions f)%N.
Lemma mtr_V1 : forall P s p l, weighted_loss P (mtr_examples (fst s) (snd s) (p :: l)) =
  mtr_v P s p + weighted_loss P (mtr_examples (fst (mtr_step s (pt_feats p))) (snd (mtr_step s (pt_feats p))) l).
Proof.
  intros P s p l. cbn [mtr_examples]. rewrite wl_app. unfold mtr_step. cbn [fst snd]. f_equal.
  unfold mtr_v. destruct (pt_label p); try reflexivity. cbn [weighted_loss fold_right ex_w ex_f ex_y]. unfold per_action. lra.
Qed.

Lemma mtr_tot : forall P k m g, covered true k m g ->
  tot (N * N) mtr_step (mtr_v P) (k, m) g = full_loss seen_mtr per_action true_costs P k m g.
Proof.
  induction 1 as [k m|k m f logging cost pred next Hp Ht Nd Cov Hk Hm Hf Hn IH]; [reflexivity|].
  cbn [tot full_loss]. unfold mtr_step at 2. cbn [fst snd]. f_equal.
  - rewrite (all_loss_sum P _ (seen_mtr f) 0 []) by reflexivity. cbn [app].
    assert (Lf : N.of_nat (length (seen_mtr f)) = num_actions f).
    { apply seen_mtr_length. destruct f as [|[s|] acts]; auto. discriminate. }
    rewrite <- (sum_actions _ logging) by (auto; intros a; rewrite Lf; auto).
    unfold true_costs. clear - Hp. induction logging as [|[a q] r IHr]; cbn [fold_right map sumN fst snd]; [lra|].
    rewrite IHr by (intros b p Hb; apply (Hp b p); now right). unfold sumN.
    unfold mtr_v. cbn [pt_label pt_feats fst snd].
    assert (0 < q) by (apply (Hp a q); now left). generalize (per_action (k + 1) (m + num_actions f)). intros rt.
    match goal with |- context [fold_right ?h 0 (map fst r)] => generalize (fold_right h 0 (map fst r)) end. intros z.
    field. lra.
  - clear - IH. assert (G : forall r, incl r logging ->
      fold_right (fun e acc => snd e * tot (N * N) mtr_step (mtr_v P) (k + 1, m + num_actions f)%N (next (fst e)) + acc) 0 r =
      fold_right (fun e acc => snd e * full_loss seen_mtr per_action true_costs P (k + 1)%N (m + num_actions f)%N (next (fst e)) + acc) 0 r).
    { induction r as [|[a q] r IHr]; intros I; cbn [fold_right fst snd]; auto.
      rewrite IHr by (intros z Hz; apply I; now right). rewrite IH; auto.
      apply in_map_iff. exists (a, q). split; auto. apply I. now left. }
    apply G. apply incl_refl.
Qed.

Lemma mtr_unbiased : forall g, covered true 0 0 g -> forall P,
  mean_over g (fun l => weighted_loss P (mtr_examples 0 0 l)) = full_loss seen_mtr per_action true_costs P 0 0 g.
Proof.
  intros g C P. rewrite <- mtr_tot by auto.
  assert (E : mean_over g (fun l => weighted_loss P (mtr_examples 0 0 l)) =
              mean_over g (fun l => 0 + weighted_loss P (mtr_examples (fst (0%N, 0%N)) (snd (0%N, 0%N)) l))).
  { apply mean_ext. intros l. cbn [fst snd]. lra. }
  rewrite E. rewrite (mean_tot (N * N) mtr_step (mtr_v P) (fun s l => weighted_loss P (mtr_examples (fst s) (snd s) l)) (fun s => eq_refl) (mtr_V1 P) true g 0 0 C (0%N, 0%N) 0). lra.
Qed.

(** with probability 1 in every label *)
Lemma certain_feats : forall p, pt_feats (certain p) = pt_feats p.
Proof. intros p. unfold certain. destruct (pt_label p); reflexivity. Qed.

Lemma drawn_tot : forall sh P k m g, covered sh k m g ->
  tot (N * N) mtr_step (fun s p => mtr_v P s (certain p)) (k, m) g = drawn_loss P k m g.
Proof.
  induction 1 as [k m|k m f logging cost pred next Hp Ht Nd Cov Hk Hm Hf Hn IH]; [reflexivity|].
  cbn [tot drawn_loss]. unfold mtr_step at 2. cbn [fst snd]. f_equal.
  - clear. induction logging as [|[a q] r IHr]; cbn [fold_right fst snd]; [lra|].
    rewrite IHr. unfold mtr_v, certain. cbn [pt_label pt_feats fst snd]. rewrite Rinv_1. ring.
  - assert (G : forall r, incl r logging ->
      fold_right (fun e acc => snd e * tot (N * N) mtr_step (fun s p => mtr_v P s (certain p)) (k + 1, m + num_actions f)%N (next (fst e)) + acc) 0 r =
      fold_right (fun e acc => snd e * drawn_loss P (k + 1)%N (m + num_actions f)%N (next (fst e)) + acc) 0 r).
    { induction r as [|[a q] r IHr]; intros I; cbn [fold_right fst snd]; auto.
      rewrite IHr by (intros z Hz; apply I; now right). rewrite IH; auto.
      apply in_map_iff. exists (a, q). split; auto. apply I. now left. }
    apply G. apply incl_refl.
Qed.

Lemma squarecb_mtr : forall g, covered true 0 0 g -> forall P,
  mean_over g (fun l => weighted_loss P (mtr_examples 0 0 (map certain l))) = drawn_loss P 0 0 g.
Proof.
  intros g C P. rewrite <- (drawn_tot true) by auto.
  assert (E : mean_over g (fun l => weighted_loss P (mtr_examples 0 0 (map certain l))) =
              mean_over g (fun l => 0 + weighted_loss P (mtr_examples (fst (0%N, 0%N)) (snd (0%N, 0%N)) (map certain l)))).
  { apply mean_ext. intros l. cbn [fst snd]. lra. }
  assert (V1 : forall (s : N * N) p l, weighted_loss P (mtr_examples (fst s) (snd s) (map certain (p :: l))) =
    mtr_v P s (certain p) + weighted_loss P (mtr_examples (fst (mtr_step s (pt_feats p))) (snd (mtr_step s (pt_feats p))) (map certain l))).
  { intros s p l. cbn [map]. rewrite mtr_V1. now rewrite certain_feats. }
  rewrite E. rewrite (mean_tot (N * N) mtr_step (fun s p => mtr_v P s (certain p))
    (fun s l => weighted_loss P (mtr_examples (fst s) (snd s) (map certain l))) (fun s => eq_refl) V1 true g 0 0 C (0%N, 0%N) 0). lra.
Qed.

(** ** ips *)
Definition sq (x : R) : R := x * x.
Lemma ips_round_loss : forall P a y xs i pre, i = N.of_nat (length pre) ->
  weighted_loss P (ips_round a y i xs) =
  sumN (fun j => sq (P (nth (N.to_nat j) (pre ++ xs) []))) (upfrom i (length xs)) +
  (if (i <=? a)%N && (a <? i + N.of_nat (length xs))%N then y * y - 2 * y * P (nth (N.to_nat a) (pre ++ xs) []) else 0).
Proof.
  induction xs as [|x xs IH]; intros i pre Hi; cbn [ips_round upfrom length sumN fold_right weighted_loss].
  - destruct ((i <=? a)%N && (a <? i + N.of_nat 0)%N) eqn:E; [|lra]. apply andb_prop in E. destruct E as (E1 & E2).
    apply N.leb_le in E1. apply N.ltb_lt in E2. lia.
  - specialize (IH (i + 1)%N (pre ++ [x])). unfold weighted_loss in IH. rewrite IH by (rewrite app_length; cbn [length]; lia). clear IH.
    rewrite <- app_assoc. cbn [app ex_w ex_f ex_y].
    assert (En : nth (N.to_nat i) (pre ++ x :: xs) [] = x).
    { rewrite app_nth2 by lia. replace (N.to_nat i - length pre)%nat with 0%nat by lia. reflexivity. }
    rewrite En. fold (sumN (fun j => sq (P (nth (N.to_nat j) (pre ++ x :: xs) []))) (upfrom (i + 1) (length xs))).
    destruct (N.eqb_spec i a) as [<- |Ne].
    + rewrite En. replace ((i + 1 <=? i)%N) with false by (symmetry; apply N.leb_gt; lia). cbn [andb].
      replace ((i <=? i)%N && (i <? i + N.of_nat (Datatypes.S (length xs)))%N) with true
        by (symmetry; apply andb_true_intro; split; [apply N.leb_le|apply N.ltb_lt]; lia). unfold sq. lra.
    + replace ((i + 1 <=? a)%N && (a <? i + 1 + N.of_nat (length xs))%N) with ((i <=? a)%N && (a <? i + N.of_nat (Datatypes.S (length xs)))%N).
      2:{ destruct (N.leb_spec i a), (N.leb_spec (i + 1) a), (N.ltb_spec a (i + N.of_nat (Datatypes.S (length xs)))),
            (N.ltb_spec a (i + 1 + N.of_nat (length xs))); try reflexivity; lia. }
      unfold sq. lra.
Qed.

Definition ips_v (P : sfeats RF -> R) (_ : unit) (p : point RF) : R :=
  match pt_label p with LbCb a c q => weighted_loss P (ips_round a (c / q) 0 (seen_ips (pt_feats p))) | _ => 0 end.
Lemma ips_V1 : forall P (s : unit) p l, weighted_loss P (ips_examples (p :: l)) = ips_v P s p + weighted_loss P (ips_examples l).
Proof. intros P s p l. cbn [ips_examples]. rewrite wl_app. f_equal. unfold ips_v. now destruct (pt_label p). Qed.

(** one round, with labels [y] whose mean is [target] *)
Lemma ips_one : forall (y : N * R -> R) (target : N -> R) (f : features RF) (logging : list (N * R)),
  total logging = 1 -> NoDup (map fst logging) -> (forall a, In a (map fst logging) <-> (a < num_actions f)%N) ->
  N.of_nat (length (seen_ips f)) = num_actions f -> (forall e, In e logging -> snd e * y e = target (fst e)) ->
  exists z, forall P,
    fold_right (fun e acc => snd e * weighted_loss P (ips_round (fst e) (y e) 0 (seen_ips f)) + acc) 0 logging =
    all_loss P target 0 (seen_ips f) + z.
Proof.
  intros y target f logging Ht Nd Cov Lf Hy.
  exists (fold_right (fun e acc => snd e * (y e * y e) + acc) 0 logging - sumN (fun a => target a * target a) (map fst logging)).
  intros P. rewrite (all_loss_sum P _ (seen_ips f) 0 []) by reflexivity. cbn [app].
  set (X := seen_ips f) in *. set (A := sumN (fun j => sq (P (nth (N.to_nat j) X []))) (upfrom 0 (length X))).
  assert (E1 : forall r, incl r logging ->
    fold_right (fun e acc => snd e * weighted_loss P (ips_round (fst e) (y e) 0 X) + acc) 0 r =
    total r * A + fold_right (fun e acc => snd e * (y e * y e) + acc) 0 r
    - 2 * sumN (fun a => target a * P (nth (N.to_nat a) X [])) (map fst r)).
  { induction r as [|[a q] r IHr]; intros I; cbn [fold_right total map sumN fst snd]; [lra|].
    rewrite IHr by (intros z Hz; apply I; now right). rewrite (ips_round_loss P a _ X 0 []) by reflexivity. cbn [app]. fold A.
    assert (Hin : In (a, q) logging) by (apply I; now left).
    assert (Ha : (a < N.of_nat (length X))%N) by (rewrite Lf; apply Cov; apply in_map_iff; exists (a, q); auto).
    replace ((0 <=? a)%N && (a <? 0 + N.of_nat (length X))%N) with true
      by (symmetry; apply andb_true_intro; split; [apply N.leb_le|apply N.ltb_lt]; lia).
    pose proof (Hy _ Hin) as T. cbn [fst snd] in T. rewrite <- T.
    fold (sumN (fun a => target a * P (nth (N.to_nat a) X [])) (map fst r)). ring. }
  rewrite (E1 _ (incl_refl _)), Ht.
  rewrite <- (sum_actions _ logging) by (auto; intros a; rewrite Lf; auto).
  unfold A. rewrite <- (sum_actions _ logging) by (auto; intros a; rewrite Lf; auto). clear.
  assert (G : forall l, sumN (fun j => sq (P (nth (N.to_nat j) X []))) l - 2 * sumN (fun a => target a * P (nth (N.to_nat a) X [])) l + sumN (fun a => target a * target a) l
     = sumN (fun a => (P (nth (N.to_nat a) X []) - target a) * (P (nth (N.to_nat a) X []) - target a)) l).
  { unfold sumN. induction l as [|a l IHl]; cbn [fold_right]; [lra|]. rewrite <- IHl. unfold sq. ring. }
  rewrite <- G. ring.
Qed.

Definition round_label (cert : bool) (cost : N -> R) (e : N * R) : R := cost (fst e) / (if cert then 1 else snd e).
Lemma ips_tot : forall (cert : bool) target sh k m g, covered sh k m g ->
  (forall logging cost, NoDup (map fst logging) -> (forall a p, In (a, p) logging -> 0 < p) ->
     forall e, In e logging -> snd e * round_label cert cost e = target logging cost (fst e)) ->
  exists z, forall P, tot unit (fun s _ => s) (fun s p => ips_v P s (if cert then certain p else p)) tt g =
    full_loss seen_ips constant target P k m g + z.
Proof.
  intros cert target sh k m g C Hy. induction C as [k m|k m f logging cost pred next Hp Ht Nd Cov Hk Hm Hf Hn IH].
  - exists 0. intros P. cbn [tot full_loss]. lra.
  - destruct (ips_one (round_label cert cost) (target logging cost) f logging) as (z1 & E1); auto.
    { apply seen_ips_length. destruct f as [|[s|] acts]; auto. }
    assert (G : forall r, incl r logging -> exists z, forall P,
      fold_right (fun e acc => snd e * tot unit (fun s _ => s) (fun s p => ips_v P s (if cert then certain p else p)) tt (next (fst e)) + acc) 0 r =
      fold_right (fun e acc => snd e * full_loss seen_ips constant target P (k + 1)%N (m + num_actions f)%N (next (fst e)) + acc) 0 r + z).
    { induction r as [|[a q] r IHr]; intros I; [exists 0; intros P; cbn [fold_right]; lra|].
      destruct IHr as (z2 & E2). { intros z Hz; apply I; now right. }
      destruct (IH a) as (z3 & E3). { apply in_map_iff. exists (a, q). split; auto. apply I. now left. }
      exists (z2 + q * z3). intros P. cbn [fold_right fst snd]. rewrite E2, E3. ring. }
    destruct (G logging (incl_refl _)) as (z2 & E2). exists (z1 + z2). intros P. cbn [tot full_loss]. rewrite E2. unfold constant at 1.
    rewrite Rmult_1_l. rewrite <- Rplus_assoc. replace (all_loss P (target logging cost) 0 (seen_ips f) +
      fold_right (fun e acc => snd e * full_loss seen_ips constant target P (k + 1)%N (m + num_actions f)%N (next (fst e)) + acc) 0 logging + (z1 + z2))
     with (all_loss P (target logging cost) 0 (seen_ips f) + z1 +
      (fold_right (fun e acc => snd e * full_loss seen_ips constant target P (k + 1)%N (m + num_actions f)%N (next (fst e)) + acc) 0 logging + z2)) by ring.
    rewrite <- E1. rewrite <- Rplus_assoc. f_equal. f_equal. clear. induction logging as [|[a q] r IHr]; cbn [fold_right fst snd]; auto.
    rewrite IHr. f_equal. f_equal. unfold ips_v, round_label. destruct cert; cbn [certain pt_label pt_feats fst snd]; reflexivity.
Qed.

Lemma ips_mean : forall (cert : bool) target sh g, covered sh 0 0 g ->
  (forall logging cost, NoDup (map fst logging) -> (forall a p, In (a, p) logging -> 0 < p) ->
     forall e, In e logging -> snd e * round_label cert cost e = target logging cost (fst e)) ->
  exists z, forall P, mean_over g (fun l => weighted_loss P (ips_examples (map (fun p => if cert then certain p else p) l))) =
    full_loss seen_ips constant target P 0 0 g + z.
Proof.
  intros cert target sh g C Hy. destruct (ips_tot cert target sh 0 0 g C) as (z & E); auto. exists z. intros P. rewrite <- E.
  assert (E1 : mean_over g (fun l => weighted_loss P (ips_examples (map (fun p => if cert then certain p else p) l))) =
              mean_over g (fun l => 0 + weighted_loss P (ips_examples (map (fun p => if cert then certain p else p) l)))).
  { apply mean_ext. intros l. lra. }
  rewrite E1. rewrite (mean_tot unit (fun s _ => s) (fun s p => ips_v P s (if cert then certain p else p))
    (fun _ l => weighted_loss P (ips_examples (map (fun p => if cert then certain p else p) l))) (fun s => eq_refl)
    (fun s p l => ips_V1 P s (if cert then certain p else p) (map (fun p => if cert then certain p else p) l)) sh g 0 0 C tt 0). lra.
Qed.

Lemma ips_unbiased : forall sh g, covered sh 0 0 g -> forall P Q,
  mean_over g (fun l => weighted_loss P (ips_examples l)) - mean_over g (fun l => weighted_loss Q (ips_examples l)) =
  full_loss seen_ips constant true_costs P 0 0 g - full_loss seen_ips constant true_costs Q 0 0 g.
Proof.
  intros sh g C P Q. destruct (ips_mean false true_costs sh g C) as (z & E).
  { intros logging cost Nd Hp [a p] Hin. unfold round_label, true_costs. cbn [fst snd]. pose proof (Hp a p Hin). field. lra. }
  assert (Em : forall P, mean_over g (fun l => weighted_loss P (ips_examples l)) = mean_over g (fun l => weighted_loss P (ips_examples (map (fun p => if false then certain p else p) l)))).
  { intros P0. apply mean_ext. intros l. f_equal. f_equal. symmetry. apply map_id. }
  rewrite !Em, !E. ring.
Qed.

Lemma shrunk_is : forall (logging : list (N * R)) cost e, NoDup (map fst logging) -> In e logging ->
  shrunk_costs logging cost (fst e) = snd e * cost (fst e).
Proof.
  unfold shrunk_costs. induction logging as [|[b q] l IH]; intros cost e Nd H; [inversion H|]. cbn [map] in Nd. inversion Nd; subst. cbn [fold_right fst snd].
  assert (Z : forall i, ~ In i (map fst l) -> fold_right (fun (e : N * R) acc => if N.eqb (fst e) i then snd e * cost i + acc else acc) 0 l = 0).
  { clear. induction l as [|[c q] l IH]; intros i Hi; cbn [fold_right fst snd]; auto. destruct (N.eqb_spec c i) as [-> |Ne].
    - exfalso. apply Hi. now left. - apply IH. intros K. apply Hi. now right. }
  destruct H as [<- |H]; cbn [fst snd].
  - rewrite N.eqb_refl, Z; auto. lra.
  - destruct (N.eqb_spec b (fst e)) as [-> |Ne]; [|apply IH; auto]. exfalso. apply H2. apply in_map. exact H.
Qed.

Lemma squarecb_ips : forall sh g, covered sh 0 0 g -> forall P Q,
  mean_over g (fun l => weighted_loss P (ips_examples (map certain l))) - mean_over g (fun l => weighted_loss Q (ips_examples (map certain l))) =
  full_loss seen_ips constant shrunk_costs P 0 0 g - full_loss seen_ips constant shrunk_costs Q 0 0 g.
Proof.
  intros sh g C P Q. destruct (ips_mean true shrunk_costs sh g C) as (z & E).
  { intros logging cost Nd Hp e Hin. rewrite shrunk_is; auto. unfold round_label. field. }
  change (fun p => if true then certain p else p) with certain in E. 
  assert (Em : forall P, mean_over g (fun l => weighted_loss P (ips_examples (map certain l))) = full_loss seen_ips constant shrunk_costs P 0 0 g + z).
  { intros P0. rewrite <- E. reflexivity. }
  rewrite !Em. ring.
Qed.
