(** C68. *)
From Coq Require Import List NArith ZArith Bool Lia Reals Lra.
From Verif Require Import Base FloatOps FloatR FloatB32 Model_Explore Model_Features Model_Types Model_Coin Model_Stack
  Spec_Explore Spec_CbExplore Spec_Decide Proof_Explore Proof_ExploreProps Proof_CbExplore Proof_Betting.
Import ListNotations.
Open Scope R_scope.

Lemma expect_app : forall f a b, expect f (a ++ b) = expect f a + expect f b.
Proof. induction a as [|[x q] a IH]; intros b; simpl; [lra|]. rewrite IH. lra. Qed.
Lemma total_app : forall a b, total (a ++ b) = total a + total b.
Proof. induction a as [|[x q] a IH]; intros b; simpl; [lra|]. rewrite IH. lra. Qed.

(** ** The cost of the floor *)
Lemma floor_sum : forall f lo hi m (g : R -> R) (consider : bool) els n, 0 <= m -> nonneg els -> within lo hi f els -> ncount consider els n ->
  (forall a p, In (a, p) els -> counting consider p -> g p <= p + m) ->
  let r := map (fun e => if consider || Rltb 0 (snd e) then (fst e, g (snd e)) else e) els in
  expect f r - lo * total r <= expect f els - lo * total els + INR n * (m * (hi - lo)).
Proof.
  intros f lo hi m g consider els n Hm Hp Hw Hn. induction Hn as [|a p l n Hc H IH|a p l n Hc H IH]; intros Hg; cbn [map expect total fst snd].
  - simpl. lra.
  - assert (IH' := IH (fun a' p' Hin => Hp a' p' (or_intror Hin)) (fun a' p' Hin => Hw a' p' (or_intror Hin)) (fun a' p' Hin => Hg a' p' (or_intror Hin))).
    clear IH. rewrite (proj2 (counting_b consider p) Hc). cbn zeta in IH'. cbn [expect total]. rewrite S_INR.
    pose proof (Hg a p (or_introl eq_refl) Hc) as G. pose proof (Hw a p (or_introl eq_refl)) as W.
    assert (g p * (f a - lo) <= p * (f a - lo) + m * (hi - lo)); [|lra].
    assert (g p * (f a - lo) <= (p + m) * (f a - lo)) by (apply Rmult_le_compat_r; lra).
    assert (m * (f a - lo) <= m * (hi - lo)) by (apply Rmult_le_compat_l; lra). lra.
  - assert (IH' := IH (fun a' p' Hin => Hp a' p' (or_intror Hin)) (fun a' p' Hin => Hw a' p' (or_intror Hin)) (fun a' p' Hin => Hg a' p' (or_intror Hin))).
    clear IH. cbn zeta in IH'. destruct (consider || Rltb 0 p)%bool eqn:E; [apply counting_b in E; contradiction|].
    cbn [expect total]. lra.
Qed.

Lemma floor_cost : forall dbg eps consider els f lo hi, 0 <= eps <= 999 / 1000 -> nonneg els -> total els = 1 -> within lo hi f els ->
  exists r, @enforce_min_prob RF dbg eps consider els = Ok r /\ nonneg r /\ total r = 1 /\
    expect f r <= expect f els + eps * (hi - lo).
Proof.
  intros dbg eps consider els f lo hi He Hp Ht Hw.
  destruct (c12_distribution dbg eps consider els ltac:(lra) Hp Ht) as (r & E & N1 & T1).
  exists r. split; auto. split; auto. split; auto.
  destruct (Req_dec eps 0) as [-> |Hz].
  - rewrite (@c14_zero RF) in E.
    + inversion E; subst. lra.
    + intros ->; simpl in Ht; lra.
    + cbn [f_eqb RF]. rewrite RF_f0. destruct (Reqb_spec 0 0); auto; lra.
  - assert (He0 : 0 < eps) by (destruct He as ([He0|He0] & _); [auto|congruence]).
    destruct (ncount_exists consider els) as (n & Hn).
    assert (Pn : (n > 0)%nat) by (apply (pos_count consider els Hp ltac:(lra) n Hn)).
    assert (Ln : length (counted consider els) = n) by (apply ncount_counted; auto).
    destruct (enforce_main dbg eps consider els) as (tau & E' & Sum & _).
    + lra.
    + intros [a p] H. eapply Hp; eauto.
    + intros H. rewrite H in Ln. simpl in Ln. lia.
    + rewrite Ln in *. rewrite E in E'. inversion E' as [Er]. clear E'.
      assert (Hn0 : 0 < INR n) by (apply lt_0_INR; lia).
      assert (M0 : 0 < eps / INR n) by (apply Rdiv_lt_0_compat; lra).
      assert (Tau : 0 <= tau).
      { destruct (Rle_or_lt 0 tau) as [|L]; auto. exfalso.
        assert (Lt : forall l : list R, l <> [] -> rsum l < rsum (map (fun p => Rmax (p - tau) (eps / INR n)) l)).
        { induction l as [|x [|y l] IH]; intros H; [congruence| |].
          - simpl. pose proof (Rmax_l (x - tau) (eps / INR n)). lra.
          - cbn [map rsum fold_right] in *. assert (Y := IH ltac:(discriminate)). pose proof (Rmax_l (x - tau) (eps / INR n)). lra. }
        assert (X := Lt (counted consider els)). rewrite Sum, counted_total, Ht in X by auto.
        assert (counted consider els <> []) by (intros K; rewrite K in Ln; simpl in Ln; lia). specialize (X H). lra. }
      pose proof (floor_sum f lo hi (eps / INR n) (fun p => Rmax (p - tau) (eps / INR n)) consider els n ltac:(lra) Hp Hw Hn) as Q.
      cbv beta zeta in Q. rewrite <- Er, T1, Ht in Q.
      replace (INR n * (eps / INR n * (hi - lo))) with (eps * (hi - lo)) in Q by (field; lra).
      assert (X : forall x y z w : R, x - w * 1 <= y - w * 1 + z -> x <= y + z) by (intros; lra). apply X with lo. rewrite Er in Q. apply Q.
      intros a p Hin _. assert (0 <= p) by (eapply Hp; eauto). apply Rmax_lub; lra.
Qed.

(** ** Greedy *)
Lemma expect_within : forall f lo hi r, nonneg r -> within lo hi f r -> lo * total r <= expect f r <= hi * total r.
Proof.
  induction r as [|[a q] r IH]; intros Hp Hw; simpl; [lra|].
  assert (Q := IH (fun a' p' Hin => Hp a' p' (or_intror Hin)) (fun a' p' Hin => Hw a' p' (or_intror Hin))).
  pose proof (Hp a q (or_introl eq_refl)). pose proof (Hw a q (or_introl eq_refl)) as W.
  assert (q * lo <= q * f a <= q * hi) by (split; apply Rmult_le_compat_l; lra). lra.
Qed.
Lemma total_const' : forall (s : list (N * R)) x, total (map (fun e => (fst e, x)) s) = INR (length s) * x.
Proof. exact total_const. Qed.

Lemma nth_ext_pairs : forall (r l : list (N * R)), length r = length l ->
  (forall j x, nth_error l j = Some x -> nth_error r j = Some x) -> r = l.
Proof.
  induction r as [|x r IH]; intros [|y l] L H; simpl in *; try discriminate; auto.
  pose proof (H 0%nat y eq_refl) as K. simpl in K. inversion K; subst. f_equal. apply IH; [lia|].
  intros j z Hj. apply (H (S j) z Hj).
Qed.
Lemma expect_upd : forall f (l : list (N * R)) i a p q, nth_error l i = Some (a, p) -> expect f (upd i (a, q) l) = expect f l + (q - p) * f a.
Proof.
  induction l as [|[b x] l IH]; intros [|i] a p q H; simpl in *; try discriminate.
  - inversion H; subst. lra.
  - rewrite (IH _ _ _ _ H). lra.
Qed.

Lemma greedy_decides : forall eps delta lo hi (f : N -> R) (scores : list (N * R)) a c,
  0 <= eps <= 1 -> within lo hi f scores -> accurate delta f scores -> In (a, c) scores ->
  exists r : list (N * R), @greedy_probs RF eps scores = Ok r /\
    expect f r <= f a + eps * (hi - lo) + (1 - eps) * (2 * delta).
Proof.
  intros eps delta lo hi f scores a c He Hw Ha Hin.
  assert (Hne : scores <> []) by (intros ->; inversion Hin).
  destruct (greedy_spec eps scores Hne) as (i & r & (b & bc & Ei & Hm) & E & L & Ent & T & Nn).
  exists r. split; [exact E|].
  assert (Hn : 0 < INR (length scores)). { apply lt_0_INR. destruct scores; [congruence|simpl; lia]. }
  set (u := map (fun s : N * R => (fst s, eps / INR (length scores))) scores).
  assert (Eu : nth_error u i = Some (b, eps / INR (length scores))) by (unfold u; rewrite nth_error_map, Ei; reflexivity).
  assert (Er : r = upd i (b, eps / INR (length scores) + (1 - eps)) u).
  { apply nth_ext_pairs; [rewrite upd_length; unfold u; rewrite map_length; auto|].
    intros j x Hj. destruct (nth_error scores j) as [[y d]|] eqn:Ej.
    - rewrite (Ent _ _ _ Ej). destruct (Nat.eqb_spec j i) as [-> |Ne].
      + rewrite nth_error_upd_eq in Hj by (apply nth_error_Some; congruence). rewrite Ei in Ej. inversion Ej; subst. exact Hj.
      + rewrite nth_error_upd_ne in Hj by auto. unfold u in Hj. rewrite nth_error_map, Ej in Hj. simpl in Hj. inversion Hj. do 2 f_equal. lra.
    - apply nth_error_None in Ej. assert (nth_error (upd i (b, eps / INR (length scores) + (1 - eps)) u) j = None).
      { apply nth_error_None. rewrite upd_length. unfold u. rewrite map_length. exact Ej. } congruence. }
  rewrite Er, (expect_upd _ _ _ _ _ _ Eu).
  assert (U : expect f u <= hi * eps).
  { replace eps with (total u) by (unfold u; rewrite (total_const scores); field; lra).
    apply expect_within with lo.
    - intros x p Hx. unfold u in Hx. apply in_map_iff in Hx. destruct Hx as ([x' d] & Q & _). inversion Q. apply div_nonneg; lra.
    - intros x p Hx. unfold u in Hx. apply in_map_iff in Hx. destruct Hx as ([x' d] & Q & K). simpl in Q. inversion Q; subst. eapply Hw; eauto. }
  apply In_nth_error in Hin as K. destruct K as (j & Hj). destruct (Hm _ _ _ Hj) as (M & _).
  pose proof (abs_le _ _ (Ha a c Hin)) as A1. apply nth_error_In in Ei. pose proof (abs_le _ _ (Ha b bc Ei)) as A2.
  pose proof (Hw a c Hin) as W.
  assert ((1 - eps) * f b <= (1 - eps) * (f a + 2 * delta)) by (apply Rmult_le_compat_l; lra).
  assert (eps * lo <= eps * f a) by (apply Rmult_le_compat_l; lra).
  lra.
Qed.

(** ** Softmax *)
Section Soft.
Variables (la : R) (scores : list (N * R)).
Hypothesis Hla : 0 < la.
Hypothesis Hne : scores <> [].
Let z := sum_exp la scores.
Let w (e : N * R) := exp (- la * snd e) / z.



(** sum of p ln(1/(n p)) <= 0 in the form sum p (ln(1/p)) <= total p * ln n + sum (1/n - p) *)
Lemma soft_entropy : forall n s, 0 < n ->
  fold_right (fun e acc => w e * (la * snd e + ln z) + acc) 0 s <=
  total (map (fun e => (fst e, w e)) s) * ln n + (INR (length s) / n - total (map (fun e => (fst e, w e)) s)).
Proof.
  intros n s Hn. assert (Zp : 0 < z) by (apply sum_exp_pos; auto).
  induction s as [|[a c] s IH]; [simpl; unfold Rdiv; lra|]. cbn [fold_right map total length fst]. rewrite S_INR.
  set (p := w (a, c)) in *. assert (Pp : 0 < p) by (unfold p, w; apply Rdiv_lt_0_compat; auto; apply exp_pos).
  assert (Lp : la * snd (a, c) + ln z = ln (/ p)).
  { unfold p, w. simpl. rewrite ln_Rinv by (apply Rdiv_lt_0_compat; auto; apply exp_pos). unfold Rdiv. rewrite ln_mult; auto; [|apply exp_pos|now apply Rinv_0_lt_compat].
    rewrite ln_exp, ln_Rinv by auto. lra. }
  rewrite Lp. pose proof (ln_tangent (/ p) n ltac:(now apply Rinv_0_lt_compat) Hn) as Q.
  assert (p * ln (/ p) <= p * ln n + (1 / n - p)).
  { apply Rmult_le_compat_l with (r := p) in Q; [|lra]. replace (p * (ln n + (/ p - n) / n)) with (p * ln n + (1 / n - p)) in Q by (field; lra). exact Q. }
  replace ((INR (length s) + 1) / n) with (INR (length s) / n + 1 / n) by (field; lra). lra.
Qed.
Lemma soft_expect : forall (y : N -> R) s, (forall a c, In (a, c) s -> c = y a) ->
  fold_right (fun e acc => w e * (la * snd e + ln z) + acc) 0 s =
  la * expect y (map (fun e => (fst e, w e)) s) + ln z * total (map (fun e => (fst e, w e)) s).
Proof.
  induction s as [|[a c] s IH]; intros H; [simpl; lra|]. cbn [fold_right map total expect fst].
  rewrite IH by (intros; apply H; right; auto). rewrite <- (H a c) by now left. simpl. lra.
Qed.
Lemma sum_exp_ge : forall s a c, In (a, c) s -> exp (- la * c) <= sum_exp la s.
Proof.
  unfold sum_exp. induction s as [|[b d] s IH]; intros a c H; [inversion H|]. cbn [fold_right snd].
  assert (0 <= fold_right (fun e acc => exp (- la * snd e) + acc) 0 s).
  { clear. induction s as [|x s IH]; simpl; [lra|]. pose proof (exp_pos (- la * snd x)). lra. }
  destruct H as [H|H].
  - inversion H; subst. lra.
  - apply IH in H. pose proof (exp_pos (- la * d)). lra.
Qed.
Lemma soft_total : total (map (fun e => (fst e, w e)) scores) = 1.
Proof.
  assert (Zp : 0 < z) by (apply sum_exp_pos; auto).
  assert (G : forall s, total (map (fun e : N * R => (fst e, w e)) s) = sum_exp la s / z).
  { intros s. unfold sum_exp, w. induction s as [|[a c] s IH]; cbn [map total fold_right fst snd]; [unfold Rdiv; lra|]. rewrite IH. field; lra. }
  rewrite G. fold z. field. lra.
Qed.
Lemma soft_fold : forall f delta s, (forall a c, In (a, c) s -> Rabs (c - f a) <= delta) ->
  expect f (map (fun e => (fst e, w e)) s) <= fold_right (fun e acc => w e * snd e + acc) 0 s + delta * total (map (fun e => (fst e, w e)) s).
Proof.
  assert (Zp : 0 < z) by (apply sum_exp_pos; auto).
  induction s as [|[a c] s IH]; intros H; [simpl; lra|]. cbn [map expect total fold_right fst snd].
  assert (Q := IH (fun a' c' Hin => H a' c' (or_intror Hin))).
  pose proof (abs_le _ _ (H a c (or_introl eq_refl))) as A.
  assert (0 < w (a, c)) by (unfold w; apply Rdiv_lt_0_compat; auto; apply exp_pos).
  assert (w (a, c) * f a <= w (a, c) * (c + delta)) by (apply Rmult_le_compat_l; lra). lra.
Qed.
Lemma soft_fold2 : forall s, fold_right (fun e acc => w e * (la * snd e + ln z) + acc) 0 s =
  la * fold_right (fun e acc => w e * snd e + acc) 0 s + ln z * total (map (fun e => (fst e, w e)) s).
Proof. induction s as [|[a c] s IH]; cbn [fold_right map total fst snd]; [lra|]. rewrite IH. lra. Qed.

Lemma soft_main : forall f delta a c, accurate delta f scores -> In (a, c) scores ->
  expect f (map (fun e => (fst e, w e)) scores) <= f a + ln (INR (length scores)) / la + 2 * delta.
Proof.
  intros f delta a c Ha Hin. assert (Zp : 0 < z) by (apply sum_exp_pos; auto).
  assert (Hn : 0 < INR (length scores)). { apply lt_0_INR. destruct scores; [congruence|simpl; lia]. }
  pose proof (soft_entropy _ scores Hn) as Q. rewrite soft_fold2, soft_total in Q.
  replace (INR (length scores) / INR (length scores)) with 1 in Q by (field; lra).
  pose proof (soft_fold f delta scores Ha) as P. rewrite soft_total in P.
  assert (Z : - la * c <= ln z).
  { rewrite <- (ln_exp (- la * c)). assert (X := sum_exp_ge _ _ _ Hin). fold z in X. destruct X as [X|X].
    - apply Rlt_le, ln_increasing; auto. apply exp_pos.
    - rewrite X. lra. }
  set (sm := fold_right (fun e acc => w e * snd e + acc) 0 scores) in *.
  assert (sm <= c + ln (INR (length scores)) / la).
  { apply Rmult_le_reg_l with la; auto. replace (la * (c + ln (INR (length scores)) / la)) with (la * c + ln (INR (length scores))) by (field; lra). lra. }
  pose proof (abs_le _ _ (Ha a c Hin)). lra.
Qed.
End Soft.

Lemma softmax_decides : forall dbg ueps la delta lo hi (f : N -> R) (scores : list (N * R)) a c,
  0 <= ueps <= 999 / 1000 -> 0 < la -> within lo hi f scores -> accurate delta f scores -> In (a, c) scores ->
  exists r : list (N * R), @softmax_probs RF dbg ueps la scores = Ok r /\
    expect f r <= f a + ueps * (hi - lo) + ln (INR (length scores)) / la + 2 * delta.
Proof.
  intros dbg ueps la delta lo hi f scores a c He Hl Hw Ha Hin.
  assert (Hne : scores <> []) by (intros ->; inversion Hin).
  destruct (softmax_spec dbg ueps la scores Hne ltac:(lra)) as (r & E & _ & _ & _ & _ & F).
  exists r. split; [exact E|].
  pose proof (soft_main la scores Hl Hne f delta a c Ha Hin) as Q.
  destruct (floor_cost dbg ueps false (map (fun e : N * R => (fst e, exp (- la * snd e) / sum_exp la scores)) scores) f lo hi He) as (r' & E' & _ & _ & B).
  - intros x p Hx. apply in_map_iff in Hx. destruct Hx as (e & Ex & _). inversion Ex; subst. apply div_nonneg; [apply Rlt_le, exp_pos|apply sum_exp_pos; auto].
  - apply soft_total; auto.
  - intros x p Hx. apply in_map_iff in Hx. destruct Hx as ([x' d] & Ex & K). simpl in Ex. inversion Ex; subst. eapply Hw; eauto.
  - rewrite F in E'. inversion E'; subst r'. lra.
Qed.

(** ** SquareCB *)
Section Igw.
Variables (gamma : R) (f : N -> R).
Hypothesis Hg : 0 < gamma.

(** [igw n bc j0 s p]: the weights of the actions other than the one at place j0 *)
Definition zsum (h : N -> R -> R -> R) := fix go (s p : list (N * R)) : R :=
  match s, p with (a, c) :: s', (_, q) :: p' => h a c q + go s' p' | _, _ => 0 end.
Lemma zsum_add : forall h1 h2 s p, zsum (fun a c q => h1 a c q + h2 a c q) s p = zsum h1 s p + zsum h2 s p.
Proof. induction s as [|[a c] s IH]; intros [|[b q] p]; simpl; try lra. rewrite IH. lra. Qed.
Lemma zsum_scal : forall k h s p, zsum (fun a c q => k * h a c q) s p = k * zsum h s p.
Proof. induction s as [|[a c] s IH]; intros [|[b q] p]; simpl; try lra. rewrite IH. lra. Qed.
Lemma zsum_ext : forall h1 h2 s p, (forall a c q, h1 a c q = h2 a c q) -> zsum h1 s p = zsum h2 s p.
Proof. intros h1 h2 s p H. revert p. induction s as [|[a c] s IH]; intros [|[b q] p]; simpl; auto. rewrite H, IH. lra. Qed.
(** bounding all the terms but one *)
Lemma zsum_le_but : forall h1 h2 s p j a c q, length s = length p -> nth_error s j = Some (a, c) -> nth_error p j = Some (a, q) ->
  (forall i b d q', i <> j -> nth_error s i = Some (b, d) -> nth_error p i = Some (b, q') -> h1 b d q' <= h2 b d q') ->
  map fst s = map fst p ->
  zsum h1 s p - h1 a c q <= zsum h2 s p - h2 a c q.
Proof.
  assert (All : forall h1 h2 s p, map fst s = map fst p ->
    (forall i b d q', nth_error s i = Some (b, d) -> nth_error p i = Some (b, q') -> h1 b d q' <= h2 b d q') -> zsum h1 s p <= zsum h2 s p).
  { induction s as [|[a c] s IH]; intros [|[b q] p] F H; simpl in *; try lra; try discriminate. inversion F; subst.
    assert (h1 b c q <= h2 b c q) by (apply (H 0%nat); reflexivity).
    assert (zsum h1 s p <= zsum h2 s p) by (apply IH; auto; intros i b' d q' X1 X2; apply (H (S i)); auto). lra. }
  induction s as [|[a0 c0] s IH]; intros [|[b0 q0] p] j a c q L Es Ep H F; simpl in *; try discriminate; [destruct j; discriminate|].
  inversion F; subst. destruct j as [|j]; simpl in *.
  - inversion Es; inversion Ep; subst. assert (zsum h1 s p <= zsum h2 s p); [|lra].
    apply All; auto. intros i b d q' X1 X2. apply (H (S i)); auto.
  - assert (h1 b0 c0 q0 <= h2 b0 c0 q0) by (apply (H 0%nat); auto; lia).
    assert (zsum h1 s p - h1 a c q <= zsum h2 s p - h2 a c q); [|lra].
    apply (IH p j); auto. intros i b d q' Ne X1 X2. apply (H (S i)); auto.
Qed.
Lemma zsum_total : forall s p, map fst s = map fst p -> zsum (fun _ _ q => q) s p = total p.
Proof. induction s as [|[a c] s IH]; intros [|[b q] p] F; simpl in *; try discriminate; auto. inversion F. rewrite IH; auto. Qed.
Lemma zsum_expect : forall s p, map fst s = map fst p -> zsum (fun a _ q => q * f a) s p = expect f p.
Proof. induction s as [|[a c] s IH]; intros [|[b q] p] F; simpl in *; try discriminate; auto. inversion F; subst. rewrite IH; auto. Qed.
Lemma zsum_err : forall s p, zsum (fun a c q => q * (c - f a)²) s p = score_error f s p.
Proof. induction s as [|[a c] s IH]; intros [|[b q] p]; simpl; auto. rewrite IH; auto. Qed.
Lemma zsum_one : forall s p, map fst s = map fst p -> zsum (fun _ _ _ => 1) s p = INR (length s).
Proof.
  induction s as [|[a c] s IH]; intros [|[b q] p] F; simpl map in *; try discriminate; [reflexivity|].
  inversion F; subst. cbn [zsum length]. rewrite S_INR, IH by auto. lra.
Qed.

Lemma igw : forall scores p bi ba bc sb j a c, nth_error scores bi = Some (ba, bc) ->
  (forall i b d, nth_error scores i = Some (b, d) -> bc <= d) ->
  map fst scores = map fst p -> total p = 1 -> (forall b q, In (b, q) p -> 0 < q) ->
  nth_error p bi = Some (ba, sb) -> 1 / INR (length scores) <= sb ->
  (forall i b d q, i <> bi -> nth_error scores i = Some (b, d) -> nth_error p i = Some (b, q) ->
     q = 1 / (INR (length scores) + gamma * (d - bc))) ->
  nth_error scores j = Some (a, c) ->
  expect f p <= f a + 2 * (INR (length scores) - 1) / gamma + gamma / 4 * score_error f scores p.
Proof.
  intros scores p bi ba bc sb j a c Eb Hm F T Hp Pb Hsb Ent Ej.
  assert (L : length scores = length p) by (rewrite <- (map_length fst scores), F, map_length; auto).
  set (n := INR (length scores)) in *.
  assert (Hn : 1 <= n). { unfold n. change 1 with (INR 1). apply le_INR. destruct scores; [destruct bi; discriminate|simpl; lia]. }
  (* the action compared with *)
  destruct (same_fst _ _ _ _ _ F Ej) as (q & Eq).
  assert (Hq : 0 < q) by (eapply Hp; eapply nth_error_In; eauto).
  (* exploration: the estimated cost of not playing the best *)
  assert (A : zsum (fun _ d q' => q' * (d - bc)) scores p <= (n - 1) / gamma).
  { pose proof (zsum_le_but (fun _ d q' => q' * (d - bc)) (fun _ _ _ => / gamma * 1) scores p bi ba bc sb L Eb Pb) as Q. cbv beta in Q.
    rewrite zsum_scal, zsum_one in Q by auto. fold n in Q.
    assert (zsum (fun _ d q' => q' * (d - bc)) scores p - sb * (bc - bc) <= / gamma * n - / gamma * 1).
    { apply Q; auto. intros i b d q' Ne Es Ep. rewrite (Ent i b d q' Ne Es Ep). pose proof (Hm _ _ _ Es) as M.
      assert (0 <= gamma * (d - bc)) by (apply Rmult_le_pos; lra).
      apply Rmult_le_reg_l with (gamma * (n + gamma * (d - bc))); [apply Rmult_lt_0_compat; lra|].
      replace (gamma * (n + gamma * (d - bc)) * (1 / (n + gamma * (d - bc)) * (d - bc))) with (gamma * (d - bc)) by (field; lra).
      replace (gamma * (n + gamma * (d - bc)) * (/ gamma * 1)) with (n + gamma * (d - bc)) by (field; lra). lra. }
    unfold Rdiv. lra. }
  (* estimation *)
  assert (B : zsum (fun b d q' => q' * (f b - d)) scores p - (f a - c) <= gamma / 4 * score_error f scores p + (/ q - 1) / gamma).
  { pose proof (zsum_le_but (fun b d q' => q' * (f b - d)) (fun b d q' => / gamma * q' + gamma / 4 * (q' * (d - f b)²)) scores p j a c q L Ej Eq) as Q.
    cbv beta in Q. rewrite zsum_add, !zsum_scal, zsum_total, zsum_err, T in Q by auto.
    assert (Z : zsum (fun b d q' => q' * (f b - d)) scores p - q * (f a - c) <=
      / gamma * 1 + gamma / 4 * score_error f scores p - (/ gamma * q + gamma / 4 * (q * (c - f a)²))).
    { apply Q; auto. intros i b d q' Ne Es Ep. assert (Hq' : 0 < q') by (eapply Hp; eapply nth_error_In; eauto).
      replace (/ gamma * q' + gamma / 4 * (q' * (d - f b)²)) with (q' * (/ gamma + gamma / 4 * (d - f b)²)) by ring.
      apply Rmult_le_compat_l; [lra|]. set (x := f b - d). replace (d - f b) with (- x) by (unfold x; ring). rewrite <- Rsqr_neg. unfold Rsqr.
      apply Rmult_le_reg_l with gamma; auto. replace (gamma * (/ gamma + gamma / 4 * (x * x))) with (1 + gamma * x * (gamma * x) / 4) by (field; lra).
      pose proof (Rle_0_sqr (gamma * x / 2 - 1)) as Sq. unfold Rsqr in Sq. lra. }
    set (x := f a - c) in *. replace (c - f a) with (- x) in Z by (unfold x; ring). rewrite <- Rsqr_neg in Z. unfold Rsqr in Z.
    assert ((q - 1) * x <= gamma / 4 * (q * (x * x)) + (1 - q) * (1 - q) / (gamma * q)).
    { apply Rmult_le_reg_l with (gamma * q); [apply Rmult_lt_0_compat; lra|].
      replace (gamma * q * (gamma / 4 * (q * (x * x)) + (1 - q) * (1 - q) / (gamma * q))) with
        ((gamma * q * x) * (gamma * q * x) / 4 + (1 - q) * (1 - q)) by (field; lra).
      pose proof (Rle_0_sqr (gamma * q * x / 2 + (1 - q))) as Sq. unfold Rsqr in Sq. lra. }
    assert (/ gamma * 1 - / gamma * q + (1 - q) * (1 - q) / (gamma * q) = (/ q - 1) / gamma) by (field; lra).
    lra. }
  (* the probability of the action compared with *)
  assert (C : bc - c + (/ q - 1) / gamma <= (n - 1) / gamma).
  { destruct (Nat.eq_dec j bi) as [-> |Ne].
    - rewrite Eb in Ej. rewrite Pb in Eq. inversion Ej; inversion Eq; subst.
      assert (/ q <= n). { replace n with (/ (1 / n)) by (field; lra). apply Rinv_le_contravar; auto. apply Rdiv_lt_0_compat; lra. }
      assert ((/ q - 1) / gamma <= (n - 1) / gamma); [|lra]. unfold Rdiv. apply Rmult_le_compat_r; [apply Rlt_le, Rinv_0_lt_compat; auto|lra].
    - pose proof (Hm _ _ _ Ej) as M. assert (0 <= gamma * (c - bc)) by (apply Rmult_le_pos; lra).
      rewrite (Ent j a c q Ne Ej Eq). right. field. split; lra. }
  assert (D : expect f p = bc * total p + zsum (fun _ d q' => q' * (d - bc)) scores p + zsum (fun b d q' => q' * (f b - d)) scores p).
  { rewrite <- (zsum_expect scores p F), <- (zsum_total scores p F), <- zsum_scal, <- !zsum_add. apply zsum_ext. intros. ring. }
  rewrite T in D. replace (2 * (n - 1) / gamma) with ((n - 1) / gamma + (n - 1) / gamma) by (field; lra). lra.
Qed.
End Igw.

Lemma square_els : forall gamma (scores : list (N * R)), 0 <= gamma -> scores <> [] -> NoDup (map fst scores) ->
  exists bi ba bc (els : list (N * R)), nth_error scores bi = Some (ba, bc) /\
    (forall i b d, nth_error scores i = Some (b, d) -> bc <= d) /\ first_min scores bi /\ map fst scores = map fst els /\
    (forall i b d q, i <> bi -> nth_error scores i = Some (b, d) -> nth_error els i = Some (b, q) ->
       q = 1 / (INR (length scores) + gamma * (d - bc))) /\
    (forall dbg ueps, @squarecb_probs RF dbg ueps gamma scores = unwrap_res (@enforce_min_prob RF dbg ueps false els)).
Proof.
  intros gamma scores Hg Hne Hnd. destruct (min_by_spec _ gtR_partial scores Hne) as (bi & ba & bc & E & Ei & Hm).
  exists bi, ba, bc.
  set (l := map (fun s : N * R => (fst s, if (fst s =? ba)%N then snd s else 1 / (INR (length scores) + gamma * (snd s - bc)))) scores).
  assert (El : nth_error l bi = Some (ba, bc)).
  { unfold l. rewrite nth_error_map, Ei. simpl. now rewrite N.eqb_refl. }
  exists (upd bi (ba, 1 - others ba l) l). split; [exact Ei|]. split; [intros; eapply Hm; eauto|]. split; [exists ba, bc; auto|]. split; [|split].
  - rewrite (map_fst_upd _ _ _ _ _ El). unfold l. rewrite map_map. reflexivity.
  - intros i b d q Ne Es Ep. rewrite nth_error_upd_ne in Ep by auto. unfold l in Ep. rewrite nth_error_map, Es in Ep. simpl in Ep.
    destruct (N.eqb_spec b ba) as [-> |]; [exfalso; apply Ne; eapply nodup_nth; eauto|]. now inversion Ep.
  - intros dbg ueps. rewrite squarecb_eq, E. cbn [bind fst snd]. cbv zeta. fold l. rewrite fold_others, Rplus_0_l, Nat2N.id, El. reflexivity.
Qed.

Lemma total_le : forall (l : list (N * R)) m, (forall a p, In (a, p) l -> p <= m) -> total l <= INR (length l) * m.
Proof.
  induction l as [|[a p] l IH]; intros m H; [simpl; lra|]. cbn [total length]. rewrite S_INR.
  assert (p <= m) by (apply (H a); now left). assert (total l <= INR (length l) * m) by (apply IH; intros; eapply H; right; eauto). lra.
Qed.

Lemma squarecb_decides : forall dbg ueps gamma lo hi (f : N -> R) (scores : list (N * R)) a c,
  0 <= ueps <= 999 / 1000 -> 0 < gamma -> NoDup (map fst scores) -> within lo hi f scores -> In (a, c) scores ->
  exists p r : list (N * R), @squarecb_probs RF dbg 0 gamma scores = Ok p /\ @squarecb_probs RF dbg ueps gamma scores = Ok r /\
    expect f r <= f a + ueps * (hi - lo) + 2 * (INR (length scores) - 1) / gamma + gamma / 4 * score_error f scores p.
Proof.
  intros dbg ueps gamma lo hi f scores a c He Hg Hnd Hw Hin.
  assert (Hne : scores <> []) by (intros ->; inversion Hin).
  destruct (square_els gamma scores ltac:(lra) Hne Hnd) as (bi & ba & bc & els & Eb & Hm & Fm & F & Ent & Sq).
  destruct (square_spec gamma scores ltac:(lra) Hne Hnd dbg 0 ltac:(lra)) as (bi' & p & (a1 & c1 & E1 & M1) & Ep & Fp & Np & Tp & Pos & Best & Chp).
  assert (Lp : length p = length scores) by (rewrite <- (map_length fst p), Fp, map_length; auto).
  assert (Z : p = els).
  { rewrite Sq in Ep. rewrite (@c14_zero RF) in Ep.
    - now inversion Ep.
    - intros ->. destruct scores; [congruence|discriminate].
    - cbn [f_eqb RF]. rewrite RF_f0. destruct (Reqb_spec 0 0); auto; lra. }
  subst els. exists p.
  destruct (floor_cost dbg ueps false p f lo hi He Np Tp) as (r & Er & _ & _ & B).
  { intros x q Hx. apply In_nth_error in Hx. destruct Hx as (i & Hi). destruct (same_fst _ _ _ _ _ Fp Hi) as (d & Hd). eapply Hw. eapply nth_error_In; eauto. }
  exists r. split; [exact Ep|]. split; [rewrite Sq, Er; reflexivity|].
  apply In_nth_error in Hin. destruct Hin as (j & Ej).
  destruct (same_fst _ _ _ _ _ F Eb) as (sb & Pb).
  assert (Bb : 1 / INR (length scores) <= sb).
  { assert (Mx : forall b q, In (b, q) p -> q <= sb).
    { intros b q Hb. apply In_nth_error in Hb. destruct Hb as (i & Hi). destruct (same_fst _ _ _ _ _ Fp Hi) as (d & Hd).
      destruct (Req_dec bc d) as [Q|Q].
      - (* an action as cheap as the best has weight 1/n *)
        assert (bi' = bi) by (apply (first_min_unique scores); auto; exists a1, c1; auto).
        subst bi'. eapply (Best i); eauto.
      - pose proof (Hm _ _ _ Hd). eapply (Chp bi i); eauto. lra. }
    pose proof (total_le p sb Mx) as Q. rewrite Tp, Lp in Q.
    assert (0 < INR (length scores)) by (apply lt_0_INR; destruct scores; [congruence|simpl; lia]).
    apply Rmult_le_reg_l with (INR (length scores)); auto. replace (INR (length scores) * (1 / INR (length scores))) with 1 by (field; lra). lra. }
  pose proof (igw gamma f Hg scores p bi ba bc sb j a c Eb Hm F Tp) as Q.
  assert (expect f p <= f a + 2 * (INR (length scores) - 1) / gamma + gamma / 4 * score_error f scores p); [|lra].
  apply Q; auto. intros b q Hb. apply In_nth_error in Hb. destruct Hb as (i & Hi). apply (Pos _ _ _ Hi).
Qed.

(** ** the whole stack *)
From Verif Require Import Model_Loss Model_Hash Model_Weights Model_Factory Spec_Reductions Proof_StackRestore Proof_StackShape Proof_StackPtl Proof_StackProps Proof_Reductions Spec_Stack.
Open Scope R_scope.
Lemma squarecb_stack : forall dbg n w (ueps gs ge : R) counter (ch : red RF n) fts p fts',
  0 <= ueps <= 999 / 1000 -> 0 < @squarecb_gamma RF gs ge counter ->
  ws_predict dbg ((w, @KSquareCb (F RF) ueps gs ge counter, ch) : red RF (S n)) fts = Ok (p, fts') ->
  exists scores probs explored : list (N * R), ws_predict dbg ch fts = Ok (PrScores scores, fts') /\ p = PrProbs probs /\
    @squarecb_probs RF dbg 0 (@squarecb_gamma RF gs ge counter) scores = Ok explored /\
    forall (f : N -> R) lo hi a c, within lo hi f scores -> In (a, c) scores ->
      expect f probs <= f a + ueps * (hi - lo) + 2 * (INR (length scores) - 1) / @squarecb_gamma RF gs ge counter
        + @squarecb_gamma RF gs ge counter / 4 * score_error f scores explored.
Proof.
  intros dbg n w ueps gs ge counter ch fts p fts' He Hg H.
  destruct (@explore_policy RF dbg n w (@KSquareCb (F RF) ueps gs ge counter) ch fts p fts' Logic.I H) as (scores & probs & A & _ & Nd & -> & E).
  assert (Hne : scores <> []) by (intros ->; discriminate E).
  destruct (square_spec (@squarecb_gamma RF gs ge counter) scores ltac:(lra) Hne Nd dbg 0 ltac:(lra)) as (_ & ex & _ & Ex & _).
  exists scores, probs, ex. split; auto. split; auto. split; [exact Ex|]. intros f lo hi a c Hw Hin.
  destruct (squarecb_decides dbg ueps _ lo hi f scores a c He Hg Nd Hw Hin) as (p' & r' & E1 & E2 & B).
  rewrite Ex in E1. rewrite E in E2. inversion E1; inversion E2; subst. exact B.
Qed.

(** a stack in exact arithmetic, on an example with two actions without features *)
Definition ex_sq_coin : coin R :=
  @mkCoin R (@mkDw R [] 16 1 6 3 3) (@mkCoinCfg R 4 1 0 0 LossSquared LinkIdentity) [(0, 0)] 0 0 0 LossSquared [] [] 4 false.
Definition ex_sq_child : red RF 1 :=
  (mkW (mkTd LTCb (Some LTSimple) FTCb (Some FTSimple) (Some PTScalar) PTScores) 1, KCbAdf Mtr 0 0,
   (mkW (mkTd LTSimple None FTSimple None None PTScalar) 1, ex_sq_coin)).
Definition ex_sq : red RF 2 :=
  (mkW (mkTd LTCb (Some LTCb) FTCb (Some FTCb) (Some PTScores) PTProbs) 1, @KSquareCb (F RF) (1 / 10) 10 (1 / 2) 3, ex_sq_child).
Lemma ex_sq_gamma : 0 < @squarecb_gamma RF 10 (1 / 2) 3.
Proof.
  unfold squarecb_gamma. cbn [f_mul f_pow RF]. apply Rmult_lt_0_compat; [lra|]. rewrite RF_of_N. unfold Rpowf.
  destruct (Req_EM_T _ 0) as [E|_]; [exfalso; simpl in E; lra|]. unfold Rpower. apply exp_pos.
Qed.
Lemma square_intro : forall n w (ueps gs ge : RF) counter (ch : red RF n) f f' sc r,
  ws_predict false ch f = Ok (PrScores sc, f') -> squarecb_probs false ueps (squarecb_gamma gs ge counter) sc = Ok r ->
  ws_predict false ((w, KSquareCb ueps gs ge counter, ch) : red RF (S n)) f = Ok (PrProbs r, f').
Proof.
  intros n w ueps gs ge counter ch f f' sc r H E. apply ws_predict_ok in H. apply ws_predict_ok. cbn [predict]. apply wrap0_ok; [lia|].
  split; [|reflexivity]. cbn [kind_predict]. rewrite H. cbn [bind as_scores]. rewrite E. reflexivity.
Qed.
Lemma cb_intro : forall n w (ch : red RF n) v (x : RF), ws_predict false ch (FtsSimple []) = Ok (PrScalar v x, FtsSimple []) ->
  ws_predict false ((w, KCbAdf Mtr 0 0, ch) : red RF (S n)) (FtsCb None [[]; []]) = Ok (PrScores [(0%N, x); (1%N, x)], FtsCb None [[]; []]).
Proof.
  intros n w ch v x H. apply ws_predict_ok in H. apply ws_predict_ok. cbn [predict]. apply wrap0_ok; [lia|].
  split; [|reflexivity]. cbn [kind_predict as_cb bind fst snd cb_predict_loop append_opt]. rewrite H.
  cbn [bind as_scalar fst snd back_simple remove_opt]. rewrite H. reflexivity.
Qed.
Lemma ex_sq_ok : exists p f', ws_predict false ex_sq (FtsCb None [[]; []]) = Ok (p, f').
Proof.
  assert (C : @f_clamp RF 0 0 0 = Ok 0).
  { unfold f_clamp. cbn [f_leb f_ltb RF]. destruct (Rleb_spec 0 0); [|lra]. destruct (Rltb_spec 0 0); destruct (Rltb 0 0); reflexivity. }
  assert (P : exists v, coin_predict false (ex_sq_coin : coin RF) [] = Ok (PrScalar v 0)).
  { unfold coin_predict. replace (coin_feats false (ex_sq_coin : coin RF) []) with (Ok ([] : list (N * RF))) by reflexivity.
    cbn [bind]. unfold coin_dot. cbn [foldm bind f_isnan RF]. rewrite RF_f0.
    change (co_min (ex_sq_coin : coin RF)) with 0. change (co_max (ex_sq_coin : coin RF)) with 0. rewrite C. cbn [bind]. eauto. }
  destruct P as (v & P).
  assert (Q := coin_intro (mkW (mkTd LTSimple None FTSimple None None PTScalar) 1) (ex_sq_coin : coin RF) [] _ P).
  destruct (square_spec (@squarecb_gamma RF 10 (1 / 2) 3) [(0%N, 0); (1%N, 0)] ltac:(pose proof ex_sq_gamma; lra) ltac:(discriminate)
    ltac:(simpl; repeat constructor; simpl; intuition discriminate) false (1 / 10) ltac:(lra)) as (_ & r & _ & Er & _).
  exists (PrProbs r), (FtsCb None [[]; []]). unfold ex_sq, ex_sq_child. apply (square_intro 1 _ _ _ _ _ _ _ _ [(0%N, 0); (1%N, 0)]); [|exact Er].
  apply (cb_intro 0 _ _ v 0). exact Q.
Qed.
