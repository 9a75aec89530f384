(** C12, C13, C14: enforce_min_prob. *)
From Coq Require Import List NArith ZArith Bool Lia Reals Lra Permutation Sorted.
From Verif Require Import Base FloatOps FloatR Model_Explore.
Import ListNotations.
Open Scope R_scope.

(** ** Sorting *)
Lemma insert_by_perm : forall A (b : A -> A -> bool) x l, Permutation (insert_by b x l) (x :: l).
Proof.
  induction l as [|y l IH]; simpl; auto. destruct (b x y); auto.
  eapply perm_trans; [apply perm_skip, IH|apply perm_swap].
Qed.

Lemma sort_by_perm : forall A (b : A -> A -> bool) l, Permutation (sort_by b l) l.
Proof.
  induction l as [|x l IH]; simpl; auto. eapply perm_trans; [apply insert_by_perm|]. now apply perm_skip.
Qed.

(** sortedness for a comparator that is a strict weak order *)
Lemma sort_by_sorted : forall A (b : A -> A -> bool) l,
  (forall x y z, b x y = false -> b y z = false -> b x z = false) ->
  (forall x y, b x y = true -> b y x = false) ->
  StronglySorted (fun x y => b x y = false) (sort_by b l).
Proof.
  intros A b l T As. induction l as [|x l IH]; simpl; [constructor|].
  revert IH. generalize (sort_by b l) as s. induction s as [|y s IHs]; intros S; simpl.
  - constructor; constructor.
  - inversion S as [|? ? S' F]; subst. destruct (b x y) eqn:E.
    + constructor; auto.
      assert (P : Permutation (insert_by b x s) (x :: s)) by apply insert_by_perm.
      rewrite Forall_forall in *. intros z Hz. apply (Permutation_in _ P) in Hz. destruct Hz as [<-|Hz]; auto.
    + constructor; auto. constructor; auto. rewrite Forall_forall in *. intros z Hz.
      apply T with y; auto.
Qed.

(** ** Real sums *)
Definition rsum (l : list R) : R := fold_right Rplus 0 l.

Lemma rsum_app : forall a b, rsum (a ++ b) = rsum a + rsum b.
Proof. induction a as [|x a IH]; intros b; simpl; [lra|]. rewrite IH. lra. Qed.

Lemma rsum_perm : forall a b, Permutation a b -> rsum a = rsum b.
Proof. induction 1; simpl; lra. Qed.

Lemma rsum_nonneg : forall l, (forall x, In x l -> 0 <= x) -> 0 <= rsum l.
Proof.
  induction l as [|x l IH]; simpl; intros H; [lra|]. assert (0 <= x) by auto.
  assert (0 <= rsum l) by auto. lra.
Qed.

(** ** The loop, on the list of values *)
Fixpoint rho_pure (n m : R) (l : list R) (idx : N) (running : R) (rho : N * R) : N * R :=
  match l with
  | [] => rho
  | p :: r =>
      let running := running + p in
      let bound := ((n - INR (N.to_nat idx) - 1) * m + running - 1) / (INR (N.to_nat idx) + 1) + m in
      rho_pure n m r (idx + 1)%N running (if Rltb bound p then (idx, running) else rho)
  end.

Lemma rho_loop_pure : forall dbg consider support m l z idx running rho,
  (forall e, In e l -> consider = true \/ snd e <> 0) ->
  (consider = true -> z = []) ->
  (forall e, In e z -> snd e = 0) ->
  (N.to_nat idx + length l <= N.to_nat support)%nat ->
  @rho_loop RF dbg consider support m (l ++ z) idx running rho =
  Ok (rho_pure (INR (N.to_nat support)) m (map snd l) idx running rho).
Proof.
  intros dbg consider support m l z. induction l as [|[a p] l IH]; intros idx running rho Hl Hz Hz0 L.
  - cbn [app]. destruct z as [|[c q] z]; [reflexivity|]. cbn [rho_loop].
    destruct consider. { specialize (Hz eq_refl). discriminate. }
    assert (q = 0) by (apply (Hz0 (c, q)); left; auto). subst q.
    rewrite RF_f0. cbn. destruct (Reqb_spec 0 0); [reflexivity|congruence].
  - cbn [app rho_loop]. simpl in L.
    assert (C : (negb consider && f_eqb RF p f0)%bool = false).
    { destruct (Hl (a, p)) as [H|H]; [left; auto|now subst|]. simpl in H. rewrite RF_f0.
      simpl. destruct (Reqb_spec p 0); [congruence|]. apply andb_false_r. }
    rewrite C. unfold usub at 1. rewrite (proj2 (N.leb_le _ _)) by lia. cbn [bind].
    unfold usub at 1. rewrite (proj2 (N.leb_le _ _)) by lia. cbn [bind].
    rewrite IH; auto; [|intros; apply Hl; right; auto|lia].
    f_equal. cbn [map rho_pure snd].
    rewrite !RF_of_N, !RF_f1. unfold f_gtb.
    replace (INR (N.to_nat (support - idx - 1))) with (INR (N.to_nat support) - INR (N.to_nat idx) - 1).
    + reflexivity.
    + replace (N.to_nat (support - idx - 1)) with (N.to_nat support - N.to_nat idx - 1)%nat by lia.
      rewrite !minus_INR by lia. simpl. lra.
Qed.

(** threshold of a prefix [A] *)
Definition thr (n m : R) (A : list R) : R :=
  ((n - INR (length A)) * m + rsum A - 1) / INR (length A).

Definition split_ok (n m : R) (L : list R) (rho : N * R) : Prop :=
  exists A C, L = A ++ C /\ A <> [] /\ N.to_nat (fst rho) = (length A - 1)%nat /\ snd rho = rsum A /\
    (forall x, In x A -> thr n m A + m < x) /\
    match C with [] => True | c :: _ => c <= thr n m A + m end.

Lemma rho_pure_split : forall n m l pre rho,
  StronglySorted Rge (pre ++ l) ->
  pre <> [] -> split_ok n m pre rho ->
  split_ok n m (pre ++ l) (rho_pure n m l (N.of_nat (length pre)) (rsum pre) rho).
Proof.
  intros n m l. induction l as [|p l IH]; intros pre rho S Ne H.
  - simpl. now rewrite app_nil_r.
  - cbn [rho_pure]. replace (pre ++ p :: l) with ((pre ++ [p]) ++ l) in * by now rewrite <- app_assoc.
    replace (N.of_nat (length pre) + 1)%N with (N.of_nat (length (pre ++ [p]))) by (rewrite app_length; simpl; lia).
    replace (rsum pre + p) with (rsum (pre ++ [p])) by (rewrite rsum_app; simpl; lra).
    apply IH; auto; [destruct pre; discriminate|].
    rewrite Nat2N.id.
    assert (EL : INR (length pre) + 1 = INR (length (pre ++ [p]))).
    { rewrite app_length, plus_INR. simpl. lra. }
    assert (Et : ((n - INR (length pre) - 1) * m + rsum (pre ++ [p]) - 1) / (INR (length pre) + 1)
                 = thr n m (pre ++ [p])).
    { unfold thr. rewrite <- EL. f_equal. lra. }
    rewrite Et. destruct (Rltb_spec (thr n m (pre ++ [p]) + m) p) as [Hc|Hc].
    + exists (pre ++ [p]), []. rewrite app_nil_r. split; auto. split; [destruct pre; discriminate|].
      split. { simpl. rewrite Nat2N.id, app_length. simpl. lia. }
      split; auto. split; auto. intros x Hx. apply in_app_iff in Hx. destruct Hx as [Hx|[<-|[]]]; auto.
      assert (x >= p).
      { clear - S Hx. rewrite <- app_assoc in S. induction pre as [|y pre IHp]; [contradiction|].
        simpl in S. inversion S as [|? ? S' F]; subst. destruct Hx as [<-|Hx]; auto.
        rewrite Forall_forall in F. apply F. apply in_app_iff. right. left. auto. }
      lra.
    + destruct H as (A & C & E & NA & Hi & Hs & HA & HC).
      destruct C as [|c C].
      * rewrite app_nil_r in E. subst pre. exists A, [p]. split; auto. split; auto. split; auto. split; auto.
        split; auto. apply Rnot_lt_le in Hc.
        assert (LA : 0 < INR (length A)) by (apply lt_0_INR; destruct A; [congruence|simpl; lia]).
        unfold thr in Hc |- *. rewrite <- EL, rsum_app in Hc. simpl in Hc.
        set (k := INR (length A)) in *. set (s := rsum A) in *.
        apply (Rmult_le_compat_r (k + 1)) in Hc; [|lra].
        replace (((n - (k + 1)) * m + (s + (p + 0)) - 1) / (k + 1) + m) with
          (((n - (k + 1)) * m + (s + p) - 1 + (k + 1) * m) / (k + 1)) in Hc by (field; lra).
        unfold Rdiv in Hc. rewrite Rmult_assoc, Rinv_l, Rmult_1_r in Hc by lra.
        apply (Rmult_le_reg_r k); auto.
        replace ((((n - k) * m + s - 1) / k + m) * k) with ((n - k) * m + s - 1 + m * k) by (field; lra).
        lra.
      * exists A, ((c :: C) ++ [p]). subst pre. rewrite <- app_assoc. split; auto.
Qed.

Lemma rho_first : forall n m p l,
  n * m < 1 -> StronglySorted Rge (p :: l) ->
  split_ok n m (p :: l) (rho_pure n m (p :: l) 0 0 (0%N, p)).
Proof.
  intros n m p l H S. cbn [rho_pure]. simpl (INR (N.to_nat 0)).
  assert (E : Rltb (((n - 0 - 1) * m + (0 + p) - 1) / (0 + 1) + m) p = true).
  { destruct (Rltb_spec (((n - 0 - 1) * m + (0 + p) - 1) / (0 + 1) + m) p) as [|Hn]; auto. exfalso. apply Hn.
    replace (((n - 0 - 1) * m + (0 + p) - 1) / (0 + 1) + m) with (n * m + p - 1) by field. lra. }
  rewrite E. replace (0 + p) with (rsum [p]) by (simpl; lra). change (0 + 1)%N with (N.of_nat (length [p])).
  apply (rho_pure_split n m l [p]); auto; [discriminate|].
  exists [p], []. split; auto. split; [discriminate|]. split; auto. split; auto. split; auto.
  intros x [<-|[]]. unfold thr. simpl.
  replace (((n - 1) * m + (p + 0) - 1) / 1 + m) with (n * m + p - 1) by field. lra.
Qed.

Lemma sum_above : forall t m A, (forall x, In x A -> t + m < x) ->
  rsum (map (fun p => Rmax (p - t) m) A) = rsum A - INR (length A) * t.
Proof.
  intros t m A HA. induction A as [|x A IH]; [simpl; lra|]. cbn [map rsum fold_right length].
  fold (rsum (map (fun p => Rmax (p - t) m) A)). fold (rsum A). rewrite S_INR.
  rewrite IH by (intros; apply HA; right; auto).
  rewrite Rmax_left by (specialize (HA x (or_introl eq_refl)); lra). lra.
Qed.

Lemma sum_below : forall t m C, (forall x, In x C -> x <= t + m) ->
  rsum (map (fun p => Rmax (p - t) m) C) = INR (length C) * m.
Proof.
  intros t m C HC. induction C as [|x C IH]; [simpl; lra|]. cbn [map rsum fold_right length].
  fold (rsum (map (fun p => Rmax (p - t) m) C)). rewrite S_INR.
  rewrite IH by (intros; apply HC; right; auto).
  rewrite Rmax_right by (specialize (HC x (or_introl eq_refl)); lra). lra.
Qed.

(** sum of the adjusted values *)
Lemma split_sum : forall n m L rho,
  INR (length L) = n ->
  StronglySorted Rge L -> split_ok n m L rho ->
  let tau := ((n - INR (N.to_nat (fst rho)) - 1) * m + snd rho - 1) / (INR (N.to_nat (fst rho)) + 1) in
  rsum (map (fun p => Rmax (p - tau) m) L) = 1 /\
  (n * m <= rsum L -> rsum L = 1 -> (forall x, In x L -> m <= x) -> forall x, In x L -> Rmax (x - tau) m = x).
Proof.
  intros n m L rho En S (A & C & E & NA & Hi & Hs & HA & HC). cbv zeta.
  assert (LA : 0 < INR (length A)) by (apply lt_0_INR; destruct A; [congruence|simpl; lia]).
  assert (E1 : INR (N.to_nat (fst rho)) + 1 = INR (length A)).
  { rewrite Hi. rewrite minus_INR; [simpl; lra|]. destruct A; [congruence|simpl; lia]. }
  assert (Et : ((n - INR (N.to_nat (fst rho)) - 1) * m + snd rho - 1) / (INR (N.to_nat (fst rho)) + 1) = thr n m A).
  { unfold thr. rewrite E1, Hs. f_equal. rewrite <- E1. lra. }
  rewrite Et. set (tau := thr n m A) in *.
  assert (HC' : forall x, In x C -> x <= tau + m).
  { destruct C as [|c C]; [intros x []|]. intros x [<-|Hx]; auto. subst L.
    assert (StronglySorted Rge (c :: C)).
    { clear - S. induction A; simpl in S; auto. inversion S; auto. }
    inversion H as [|? ? _ F]; subst. rewrite Forall_forall in F. specialize (F x Hx). lra. }
  assert (SA : rsum (map (fun p => Rmax (p - tau) m) A) = rsum A - INR (length A) * tau).
  { apply sum_above. exact HA. }
  assert (SC : rsum (map (fun p => Rmax (p - tau) m) C) = INR (length C) * m).
  { apply sum_below. exact HC'. }
  assert (Ln : INR (length C) = n - INR (length A)).
  { rewrite <- En, E, app_length, plus_INR. lra. }
  assert (Kt : INR (length A) * tau = (n - INR (length A)) * m + rsum A - 1).
  { unfold tau, thr. field. lra. }
  split.
  - rewrite E, map_app, rsum_app, SA, SC, Ln, Kt. lra.
  - intros Hnm H1 Hm. rewrite E, rsum_app in H1.
    assert (SCge : INR (length C) * m <= rsum C).
    { assert (forall x, In x C -> m <= x) by (intros; apply Hm; rewrite E; apply in_app_iff; auto).
      clear - H. induction C as [|x C IH]; [simpl; lra|]. cbn [rsum fold_right length].
      fold (rsum C). rewrite S_INR. assert (m <= x) by (apply H; left; auto).
      assert (INR (length C) * m <= rsum C) by (apply IH; intros; apply H; right; auto). lra. }
    assert (Tle : tau <= 0).
    { assert (INR (length A) * tau <= 0) by (rewrite Kt; rewrite Ln in SCge; lra).
      destruct (Rle_or_lt tau 0); auto. exfalso.
      assert (0 < INR (length A) * tau) by (apply Rmult_lt_0_compat; auto). lra. }
    destruct C as [|c C].
    + simpl in H1, Ln. assert (T0 : INR (length A) * tau = 0) by (rewrite Kt; replace (n - INR (length A)) with 0 by lra; lra).
      assert (tau = 0) by (apply Rmult_integral in T0; destruct T0; lra).
      intros x Hx. rewrite H. rewrite Rminus_0_r. apply Rmax_left. now apply Hm.
    + assert (m <= c) by (apply Hm; rewrite E; apply in_app_iff; right; left; auto).
      assert (tau = 0) by lra. intros x Hx. rewrite H0. rewrite Rminus_0_r. apply Rmax_left. now apply Hm.
Qed.

(** ** The function at the reals *)
Lemma sort_desc_RF : forall l : list (N * R),
  @sort_desc RF l = Ok (sort_by (fun x y => Rltb (snd x) (snd y)) l).
Proof.
  intros. unfold sort_desc. replace (existsb (fun e => f_isnan RF (snd e)) l) with false.
  - now rewrite andb_false_r.
  - induction l; simpl; auto.
Qed.

Lemma sorted_vals : forall l : list (N * R),
  StronglySorted Rge (map snd (sort_by (fun x y => Rltb (snd x) (snd y)) l)).
Proof.
  intros l.
  assert (S : StronglySorted (fun x y => Rltb (snd x) (snd y) = false) (sort_by (fun x y : N * R => Rltb (snd x) (snd y)) l)).
  { apply sort_by_sorted.
    - intros x y z. destruct (Rltb_spec (snd x) (snd y)), (Rltb_spec (snd y) (snd z)), (Rltb_spec (snd x) (snd z)); auto; lra.
    - intros x y. destruct (Rltb_spec (snd x) (snd y)), (Rltb_spec (snd y) (snd x)); auto; try discriminate; lra. }
  induction S as [|a s S IH F]; simpl; constructor; auto.
  rewrite Forall_forall in *. intros x Hx. apply in_map_iff in Hx. destruct Hx as (y & <- & Hy).
  specialize (F y Hy). destruct (Rltb_spec (snd a) (snd y)); [discriminate|lra].
Qed.

Lemma filter_perm : forall A (f : A -> bool) a b, Permutation a b -> Permutation (filter f a) (filter f b).
Proof.
  induction 1; simpl; auto.
  - destruct (f x); auto.
  - destruct (f x), (f y); auto. apply perm_swap.
  - eapply perm_trans; eauto.
Qed.

Lemma filter_all : forall A (f : A -> bool) l, (forall x, In x l -> f x = true) -> filter f l = l.
Proof.
  induction l as [|a l IH]; simpl; intros H; auto. rewrite H by auto. now rewrite IH by auto.
Qed.
Lemma filter_none : forall A (f : A -> bool) l, (forall x, In x l -> f x = false) -> filter f l = [].
Proof.
  induction l as [|a l IH]; simpl; intros H; auto. rewrite H by auto. now rewrite IH by auto.
Qed.

Definition counted (consider : bool) (els : list (N * R)) : list R :=
  map snd (filter (fun e => consider || negb (Reqb (snd e) 0)) els).

Lemma support_counted : forall consider (els : list (N * R)),
  N.to_nat (@support_size RF consider els) = length (counted consider els).
Proof.
  intros consider els. unfold support_size, counted. rewrite map_length. destruct consider.
  - rewrite Nat2N.id. rewrite filter_all; auto.
  - rewrite RF_f0. cbn [f_eqb RF orb].
    assert (length els = length (filter (fun e : N * R => Reqb (snd e) 0) els) +
                        length (filter (fun e : N * R => negb (Reqb (snd e) 0)) els))%nat as HL;
      [|revert HL; change (F RF) with R; generalize (length (filter (fun e : N * R => Reqb (snd e) 0) els)); intros; lia].
    induction els as [|e els IH]; simpl; auto. destruct (Reqb (snd e) 0); simpl; lia.
Qed.

(** the sorted list is the counted elements followed by zeros that do not count *)
Lemma sorted_split : forall consider (s : list (N * R)),
  (forall e, In e s -> 0 <= snd e) ->
  StronglySorted Rge (map snd s) ->
  exists l z, s = l ++ z /\ l = filter (fun e => consider || negb (Reqb (snd e) 0)) s /\
    (forall e, In e l -> consider = true \/ snd e <> 0) /\ (consider = true -> z = []) /\ (forall e, In e z -> snd e = 0).
Proof.
  intros consider s Hp S. destruct consider.
  - exists s, []. rewrite app_nil_r. split; auto. split; [symmetry; now apply filter_all|].
    split; auto. split; auto. intros e [].
  - induction s as [|e s IH].
    + exists [], []. simpl. repeat split; auto; intros e [].
    + simpl in S. inversion S as [|? ? S' F]; subst.
      destruct IH as (l & z & E & El & Hl & _ & Hz); auto. { intros; apply Hp; right; auto. }
      simpl. destruct (Reqb_spec (snd e) 0) as [Ez|Ez]; simpl.
      * assert (Z : forall x, In x s -> snd x = 0).
        { intros x Hx. rewrite Forall_forall in F. specialize (F (snd x) (in_map snd _ _ Hx)).
          assert (0 <= snd x) by (apply Hp; right; auto). lra. }
        exists [], (e :: s). simpl. split; auto. split.
        { symmetry. apply filter_none. intros x Hx. rewrite (Z x Hx). destruct (Reqb_spec 0 0); auto; congruence. }
        split; [intros x []|]. split; [discriminate|]. intros x [<-|Hx]; auto.
      * exists (e :: l), z. simpl. rewrite <- E. split; auto. split; [now rewrite El|].
        split; [|split; [discriminate|auto]]. intros x [<-|Hx]; auto.
Qed.

(** closed form of the result *)
Lemma enforce_main : forall dbg eps consider (els : list (N * R)),
  0 < eps <= 999 / 1000 ->
  (forall e, In e els -> 0 <= snd e) ->
  counted consider els <> [] ->
  exists tau,
    @enforce_min_prob RF dbg eps consider els =
      Ok (map (fun e => if consider || Rltb 0 (snd e)
                        then (fst e, Rmax (snd e - tau) (eps / INR (length (counted consider els)))) else e) els) /\
    rsum (map (fun p => Rmax (p - tau) (eps / INR (length (counted consider els)))) (counted consider els)) = 1 /\
    (rsum (counted consider els) = 1 ->
     (forall x, In x (counted consider els) -> eps / INR (length (counted consider els)) <= x) ->
     forall x, In x (counted consider els) -> Rmax (x - tau) (eps / INR (length (counted consider els))) = x).
Proof.
  intros dbg eps consider els He Hp Hne.
  assert (Ne : els <> []) by (intros ->; apply Hne; reflexivity).
  unfold enforce_min_prob. destruct els as [|e0 els0] eqn:Eels; [congruence|]. rewrite <- Eels in *. clear Ne.
  rewrite RF_f0. simpl (f_eqb RF eps 0). destruct (Reqb_spec eps 0) as [|_]; [lra|].
  assert (B1 : (f_ltb RF eps 0 || @f_gtb RF eps (@f1 RF))%bool = false).
  { unfold f_gtb. rewrite RF_f1. cbn [f_ltb RF]. destruct (Rltb_spec eps 0), (Rltb_spec 1 eps); simpl; auto; lra. }
  rewrite B1.
  assert (B2 : @f_gtb RF eps (lit_0999 RF) = false).
  { unfold f_gtb, lit_0999. cbn [f_ltb f_lit RF]. destruct (Rltb_spec (999 / 1000) eps); auto; lra. }
  rewrite B2. rewrite sort_desc_RF. cbn [bind].
  set (s := sort_by (fun x y : N * R => Rltb (snd x) (snd y)) els).
  assert (Ps : Permutation s els) by apply sort_by_perm.
  assert (Hps : forall e, In e s -> 0 <= snd e) by (intros e H; apply Hp; now apply (Permutation_in _ Ps)).
  destruct (sorted_split consider s Hps (sorted_vals els)) as (l & z & E & El & Hl & Hz & Hz0).
  assert (Pl : Permutation (map snd l) (counted consider els)).
  { rewrite El. unfold counted. apply Permutation_map, filter_perm, Ps. }
  rewrite RF_of_N. rewrite support_counted.
  set (nn := length (counted consider els)) in *.
  assert (Ln : length l = nn) by (rewrite <- (map_length snd l); apply Permutation_length; auto).
  assert (Hn : (nn <> 0)%nat) by (unfold nn; destruct (counted consider els); [congruence|discriminate]).
  assert (Hn0 : 0 < INR nn) by (apply lt_0_INR; lia).
  destruct l as [|a l]; [simpl in Ln; congruence|].
  match goal with |- context [@hd_error ?A ?B] =>
    replace (@hd_error A B) with (Some a) by (change (Some a = hd_error s); rewrite E; reflexivity) end.
  cbn [opt_or bind].
  set (m := eps / INR nn). change (f_div RF eps (INR nn)) with m.
  assert (RL : @rho_loop RF dbg consider (support_size (O := RF) consider els) m s 0 0 (0%N, snd a) =
    Ok (rho_pure (INR nn) m (map snd (a :: l)) 0 0 (0%N, snd a))).
  { rewrite E. rewrite rho_loop_pure; auto; rewrite support_counted; fold nn; auto. simpl in *; lia. }
  match goal with |- context [@rho_loop ?A ?B ?C ?D ?E ?F ?G ?H ?I] =>
    replace (@rho_loop A B C D E F G H I) with (Ok (rho_pure (INR nn) m (map snd (a :: l)) 0 0 (0%N, snd a)))
      by (symmetry; exact RL) end.
  cbn [bind].
  set (L := map snd (a :: l)) in *.
  assert (SL : StronglySorted Rge L).
  { pose proof (sorted_vals els) as S. fold s in S. rewrite E, map_app in S. fold L in S.
    clear - S. induction L as [|x L IH]; simpl in *; constructor; inversion S as [|? ? S' F]; subst; auto.
    rewrite Forall_forall in *. intros y Hy. apply F. apply in_app_iff. auto. }
  assert (Sp : split_ok (INR nn) m L (rho_pure (INR nn) m L 0 0 (0%N, snd a))).
  { apply rho_first; auto. unfold m. replace (INR nn * (eps / INR nn)) with eps by (field; lra). lra. }
  set (rho := rho_pure (INR nn) m L 0 0 (0%N, snd a)) in *.
  assert (EL : INR (length L) = INR nn) by (unfold L; rewrite map_length, Ln; auto).
  pose proof (split_sum (INR nn) m L rho EL SL Sp) as (S1 & S2).
  cbv zeta in S1, S2. rewrite RF_of_N, !RF_f1.
  eexists. split; [|split].
  - f_equal. apply map_ext. intros e. unfold counts, f_gtb. rewrite RF_f0. simpl (f_ltb RF 0 (snd e)).
    destruct (consider || Rltb 0 (snd e))%bool; auto. f_equal. rewrite RF_max. reflexivity.
  - etransitivity; [|exact S1]. symmetry. apply rsum_perm, Permutation_map. exact Pl.
  - intros H1 H2 x Hx. apply S2.
    + rewrite (rsum_perm L (counted consider els)) by auto. rewrite H1. unfold m.
      replace (INR nn * (eps / INR nn)) with eps by (field; lra). lra.
    + rewrite (rsum_perm L (counted consider els)); auto.
    + intros y Hy. apply H2. now apply (Permutation_in _ Pl).
    + now apply (Permutation_in _ (Permutation_sym Pl)).
Qed.
