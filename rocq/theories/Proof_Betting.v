(** Betting a fraction of one's wealth on a coin: how the wealth grows (C66, C67).  Reals only. *)
From Coq Require Import Reals Lra Psatz.
Open Scope R_scope.

Lemma ln_tangent : forall x m, 0 < x -> 0 < m -> ln x <= ln m + (x - m) / m.
Proof.
  intros x m X M. assert (T : 0 < x / m) by now apply Rdiv_lt_0_compat.
  pose proof (exp_ineq1_le (ln (x / m))) as Q. rewrite exp_ln in Q by auto. unfold Rdiv in Q at 1.
  rewrite ln_mult in Q by (auto; now apply Rinv_0_lt_compat). rewrite ln_Rinv in Q by auto.
  replace ((x - m) / m) with (x / m - 1) by (field; lra). lra.
Qed.

Definition xlx (x : R) : R := x * ln x.
Lemma xlx_0 : xlx 0 = 0.
Proof. unfold xlx. lra. Qed.
Lemma xlx_1 : xlx 1 = 0.
Proof. unfold xlx. rewrite ln_1. lra. Qed.
Lemma xlx_tangent : forall y m, 0 <= y -> 0 < m -> xlx m + (1 + ln m) * (y - m) <= xlx y.
Proof.
  intros y m Y M. unfold xlx. destruct (Req_dec y 0) as [-> |N]; [lra|].
  pose proof (ln_tangent m y M ltac:(lra)) as Q. assert (P : 0 < y) by lra.
  apply Rmult_le_compat_l with (r := y) in Q; [|lra].
  replace (y * (ln y + (m - y) / y)) with (y * ln y + (m - y)) in Q by (field; lra). lra.
Qed.

Lemma ln_2_le : ln 2 <= 1.
Proof. pose proof (ln_tangent 2 1 ltac:(lra) ltac:(lra)) as Q. rewrite ln_1 in Q. lra. Qed.

Lemma d_ext : forall f g x l, derivable_pt_lim f x l -> (forall y, f y = g y) -> derivable_pt_lim g x l.
Proof. intros f g x l D E eps P. destruct (D eps P) as (d & Q). exists d. intros h H1 H2. rewrite <- !E. auto. Qed.
Lemma d_aff : forall p q x, derivable_pt_lim (fun t => p + q * t) x q.
Proof.
  intros p q x. assert (D : derivable_pt_lim (fun t => p + q * t) x (0 + (0 * x + q * 1))).
  { apply (derivable_pt_lim_plus (fun _ => p) (fun t => q * t)); [apply derivable_pt_lim_const|].
    apply (derivable_pt_lim_mult (fun _ => q) (fun t => t)); [apply derivable_pt_lim_const|apply derivable_pt_lim_id]. }
  replace (0 + (0 * x + q * 1)) with q in D by ring. exact D.
Qed.
Lemma d_ln_aff : forall p q x, 0 < p + q * x -> derivable_pt_lim (fun t => ln (p + q * t)) x (q / (p + q * x)).
Proof.
  intros p q x P. replace (q / (p + q * x)) with (/ (p + q * x) * q) by (field; lra).
  apply (derivable_pt_lim_comp (fun t => p + q * t) ln); [apply d_aff|now apply derivable_pt_lim_ln].
Qed.
Lemma d_xlx_aff : forall p q x, 0 < p + q * x -> derivable_pt_lim (fun t => xlx (p + q * t)) x (q * (ln (p + q * x) + 1)).
Proof.
  intros p q x P. unfold xlx. replace (q * (ln (p + q * x) + 1)) with (q * ln (p + q * x) + (p + q * x) * (q / (p + q * x))) by (field; lra).
  apply (derivable_pt_lim_mult (fun t => p + q * t) (fun t => ln (p + q * t))); [apply d_aff|now apply d_ln_aff].
Qed.

Lemma xlx_midpoint : forall a c, 0 <= a -> 0 <= c -> xlx (a + c) - xlx a <= c + c * ln (a + c / 2).
Proof.
  intros a c A C. destruct (Req_dec c 0) as [-> |NC]; [rewrite Rplus_0_r; lra|].
  destruct (Req_dec a 0) as [-> |NA].
  - rewrite xlx_0, !Rplus_0_l. unfold xlx, Rdiv. rewrite ln_mult by lra. rewrite ln_Rinv by lra.
    pose proof ln_2_le. nra.
  - pose (D := fun t => (0 + 1 * t) + (0 + 1 * t) * ln (a + / 2 * t) - xlx (a + 1 * t)).
    pose (D' := fun t => 1 + (1 * ln (a + / 2 * t) + (0 + 1 * t) * (/ 2 / (a + / 2 * t))) - 1 * (ln (a + 1 * t) + 1)).
    assert (Q : exists t, D c - D 0 = D' t * (c - 0) /\ 0 < t < c).
    { apply MVT_cor2; [lra|]. intros t T. unfold D, D'. apply derivable_pt_lim_minus; [|apply d_xlx_aff; lra].
      apply derivable_pt_lim_plus; [apply d_aff|].
      apply (derivable_pt_lim_mult (fun t => 0 + 1 * t) (fun t => ln (a + / 2 * t))); [apply d_aff|apply d_ln_aff; lra]. }
    destruct Q as (t & E & T).
    assert (P : 0 <= D' t).
    { unfold D'. pose proof (ln_tangent (a + t) (a + t / 2) ltac:(lra) ltac:(lra)) as Q.
      replace ((a + t - (a + t / 2)) / (a + t / 2)) with ((0 + 1 * t) * (/ 2 / (a + / 2 * t))) in Q by (field; lra).
      replace (a + / 2 * t) with (a + t / 2) in * by field. replace (a + 1 * t) with (a + t) by ring. lra. }
    unfold D in E. replace (0 + 1 * 0) with 0 in E by ring. replace (a + 1 * 0) with a in E by ring. replace (a + / 2 * c) with (a + c / 2) in E by field.
    replace (a + 1 * c) with (a + c) in E by ring. replace (0 + 1 * c) with c in E by ring. assert (0 <= D' t * (c - 0)) by (apply Rmult_le_pos; lra). lra.
Qed.

(** c ln t <= ln (1 + c (t - 1)) *)
Lemma ln_fraction : forall c t, 0 <= c <= 1 -> 0 < t -> c * ln t <= ln (1 + c * (t - 1)).
Proof.
  intros c t C T. set (m := 1 + c * (t - 1)). assert (M : 0 < m) by (unfold m; nra).
  pose proof (ln_tangent t m T M) as Q1. pose proof (ln_tangent 1 m ltac:(lra) M) as Q2. rewrite ln_1 in Q2.
  assert (Z : c * ((t - m) / m) + (1 - c) * ((1 - m) / m) = 0) by (unfold m; field; fold m; lra).
  nra.
Qed.

(** the potential *)
Definition phi (a b : R) : R := xlx a + xlx b + (a + b) * ln 2 - xlx (a + b + 1).
Lemma phi_sym : forall a b, phi a b = phi b a.
Proof. intros. unfold phi. rewrite (Rplus_comm a b). lra. Qed.
Lemma phi_0 : phi 0 0 = 0.
Proof. unfold phi. rewrite xlx_0. replace (0 + 0 + 1) with 1 by lra. rewrite xlx_1. lra. Qed.
Lemma phi_step : forall a b c, 0 <= a -> 0 <= b -> 0 <= c <= 1 -> phi (a + c) b - phi a b <= ln (1 + c * ((a - b) / (a + b + 1))).
Proof.
  intros a b c A B C. set (m := a + b + 1). assert (M : 1 <= m) by (unfold m; lra).
  assert (Q : c * ln ((2 * a + 1) / m) <= ln (1 + c * ((2 * a + 1) / m - 1))).
  { apply ln_fraction; auto. apply Rdiv_lt_0_compat; lra. }
  replace ((2 * a + 1) / m - 1) with ((a - b) / m) in Q by (unfold m; field; fold m; lra).
  eapply Rle_trans; [|exact Q]. unfold phi. replace (a + c + b + 1) with (m + c) by (unfold m; lra). fold m.
  pose proof (xlx_midpoint a c A (proj1 C)) as Q1. pose proof (xlx_tangent (m + c) m ltac:(lra) ltac:(lra)) as Q2.
  unfold Rdiv at 1. rewrite ln_mult by (try apply Rinv_0_lt_compat; lra). rewrite ln_Rinv by lra.
  destruct (Req_dec c 0) as [-> |NC]; [rewrite !Rplus_0_r; lra|].
  assert (Q3 : ln (a + c / 2) + ln 2 <= ln (2 * a + 1)).
  { rewrite <- ln_mult by lra. destruct (Req_dec c 1) as [-> |]; [apply Req_le; f_equal; lra|].
    apply Rlt_le, ln_increasing; lra. }
  nra.
Qed.
Lemma phi_scale : forall a b s, 0 <= a -> 0 <= b -> 0 < s <= 1 -> phi (s * a) (s * b) <= phi a b - ln s.
Proof.
  intros a b s A B S. unfold phi. set (n := a + b).
  replace (s * a + s * b) with (s * n) by (unfold n; ring).
  assert (X : forall y, 0 <= y -> xlx (s * y) = s * xlx y + s * y * ln s).
  { intros y Y. unfold xlx. destruct (Req_dec y 0) as [-> |N]; [rewrite !Rmult_0_r; lra|]. rewrite ln_mult by lra. ring. }
  rewrite !X by auto. set (E := xlx a + xlx b + n * ln 2).
  assert (HE : xlx n <= E).
  { unfold E. destruct (Req_dec n 0) as [Z|N].
    - rewrite Z. assert (a = 0) as -> by (unfold n in Z; lra). assert (b = 0) as -> by (unfold n in Z; lra). rewrite xlx_0. lra.
    - assert (P : 0 < n) by (unfold n in *; lra). pose proof (xlx_tangent a (n / 2) A ltac:(lra)) as Qa. pose proof (xlx_tangent b (n / 2) B ltac:(lra)) as Qb.
      unfold xlx in Qa at 1. unfold xlx in Qb at 1. unfold xlx at 1. unfold Rdiv in Qa, Qb. rewrite ln_mult, ln_Rinv in Qa by lra. rewrite ln_mult, ln_Rinv in Qb by lra.
      unfold n in *. nra. }
  assert (J : xlx (n + 1) <= s * xlx (n + / s) + (1 - s) * xlx n).
  { assert (Sp : 0 < / s) by (apply Rinv_0_lt_compat; lra). assert (N0 : 0 <= n) by (unfold n; lra).
    pose proof (xlx_tangent (n + / s) (n + 1) ltac:(lra) ltac:(lra)) as Q1. pose proof (xlx_tangent n (n + 1) N0 ltac:(lra)) as Q2.
    assert (Z : s * (n + / s - (n + 1)) + (1 - s) * (n - (n + 1)) = 0) by (field; lra).
    set (k := 1 + ln (n + 1)) in *.
    apply Rmult_le_compat_l with (r := s) in Q1; [|lra]. apply Rmult_le_compat_l with (r := 1 - s) in Q2; [|lra].
    assert (Zk : s * (k * (n + / s - (n + 1))) + (1 - s) * (k * (n - (n + 1))) = 0)
      by (transitivity (k * (s * (n + / s - (n + 1)) + (1 - s) * (n - (n + 1)))); [ring|rewrite Z; ring]).
    lra. }
  replace (s * n + 1) with (s * (n + / s)) by (field; lra).
  assert (N0 : 0 <= n + / s) by (pose proof (Rinv_0_lt_compat s ltac:(lra)); unfold n; lra). rewrite X by auto.
  replace (s * (n + / s) * ln s) with (s * n * ln s + ln s) by (field; lra).
  replace (s * a * ln s) with (s * ln s * a) by ring. replace (s * b * ln s) with (s * ln s * b) by ring.
  assert (Y : s * ln s * a + s * ln s * b = s * n * ln s) by (unfold n; ring).
  assert (Z : s * n * ln 2 = s * (n * ln 2)) by ring.
  assert (HE2 : (1 - s) * xlx n <= (1 - s) * E) by (apply Rmult_le_compat_l; lra).
  unfold E in *. lra.
Qed.

(** relative entropy against the square *)
Lemma entropy_square : forall r, 0 <= r <= 1 -> r * r <= xlx (1 + r) + xlx (1 - r).
Proof.
  intros r R. destruct (Req_dec r 1) as [-> |N1].
  - replace (1 - 1) with 0 by ring. rewrite xlx_0. unfold xlx. replace (1 + 1) with 2 by ring.
    assert (1 / 2 <= ln 2) by (pose proof (ln_tangent 1 2 ltac:(lra) ltac:(lra)) as Q; rewrite ln_1 in Q; lra). lra.
  - destruct (Req_dec r 0) as [-> |N0]; [replace (1 + 0) with 1 by ring; replace (1 - 0) with 1 by ring; rewrite xlx_1; lra|].
    pose (D := fun t => xlx (1 + 1 * t) + xlx (1 + -1 * t) - (0 + 1 * t) * (0 + 1 * t)).
    pose (D' := fun t => 1 * (ln (1 + 1 * t) + 1) + -1 * (ln (1 + -1 * t) + 1) - (1 * (0 + 1 * t) + (0 + 1 * t) * 1)).
    assert (Q : exists t, D r - D 0 = D' t * (r - 0) /\ 0 < t < r).
    { apply MVT_cor2; [lra|]. intros t T. unfold D, D'.
      apply derivable_pt_lim_minus; [apply derivable_pt_lim_plus; apply d_xlx_aff; lra|].
      apply (derivable_pt_lim_mult (fun t => 0 + 1 * t) (fun t => 0 + 1 * t)); apply d_aff. }
    destruct Q as (t & E & T).
    assert (P : 0 <= D' t).
    { unfold D'. assert (T1 : 0 < (1 + t) / (1 - t)) by (apply Rdiv_lt_0_compat; lra).
      pose (K := fun s => ln (1 + 1 * s) - ln (1 + -1 * s) - (0 + 2 * s)). pose (K' := fun s => 1 / (1 + 1 * s) - -1 / (1 + -1 * s) - 2).
      assert (Q : exists s, K t - K 0 = K' s * (t - 0) /\ 0 < s < t).
      { apply MVT_cor2; [lra|]. intros s S. unfold K, K'. apply derivable_pt_lim_minus; [apply derivable_pt_lim_minus; apply d_ln_aff; lra|apply d_aff]. }
      destruct Q as (s & Es & S).
      assert (P : 0 <= K' s).
      { unfold K'. replace (1 / (1 + 1 * s) - -1 / (1 + -1 * s) - 2) with (2 * (s * s) / ((1 + s) * (1 - s))) by (field; lra).
        apply Rmult_le_pos; [nra|]. apply Rlt_le, Rinv_0_lt_compat. apply Rmult_lt_0_compat; lra. }
      unfold K in Es. replace (1 + 1 * 0) with 1 in Es by ring. replace (1 + -1 * 0) with 1 in Es by ring. rewrite ln_1 in Es. assert (0 <= K' s * (t - 0)) by (apply Rmult_le_pos; lra). lra. }
    unfold D in E. replace (1 + 1 * 0) with 1 in E by ring. replace (1 + -1 * 0) with 1 in E by ring. rewrite xlx_1 in E.
    replace (1 + 1 * r) with (1 + r) in E by ring. replace (1 + -1 * r) with (1 - r) in E by ring. replace ((0 + 1 * r) * (0 + 1 * r)) with (r * r) in E by ring. assert (0 <= D' t * (r - 0)) by (apply Rmult_le_pos; lra). lra.
Qed.
Lemma phi_lower : forall a b, 0 <= a -> 0 <= b -> (a - b) * (a - b) / (2 * (a + b)) - ln (a + b + 1) - 1 <= phi a b.
Proof.
  assert (W : forall a b, 0 <= b <= a -> (a - b) * (a - b) / (2 * (a + b)) - ln (a + b + 1) - 1 <= phi a b).
  { intros a b B. destruct (Req_dec a 0) as [Z|N].
    - assert (b = 0) as -> by lra. rewrite Z, phi_0. replace (0 + 0 + 1) with 1 by lra. rewrite ln_1. unfold Rdiv. lra.
    - set (n := a + b). assert (P : 0 < n) by (unfold n; lra). pose (r := (a - b) / n).
      assert (R : 0 <= r <= 1).
      { unfold r. split; [apply Rmult_le_pos; [lra|apply Rlt_le, Rinv_0_lt_compat; lra]|].
        apply Rmult_le_reg_r with n; auto. unfold Rdiv. rewrite Rmult_assoc, Rinv_l by lra. unfold n. lra. }
      pose proof (entropy_square r R) as Q.
      assert (Ea : a = n / 2 * (1 + r)) by (unfold r, n; field; fold n; lra).
      assert (Eb : b = n / 2 * (1 - r)) by (unfold r, n; field; fold n; lra).
      assert (X : forall y, 0 <= y -> xlx (n / 2 * y) = n / 2 * xlx y + n / 2 * y * ln (n / 2)).
      { intros y Y. unfold xlx. destruct (Req_dec y 0) as [-> |Ny]; [rewrite !Rmult_0_r; lra|]. rewrite ln_mult by lra. ring. }
      assert (L2 : ln (n / 2) = ln n - ln 2) by (unfold Rdiv; rewrite ln_mult, ln_Rinv by lra; lra).
      assert (Sq : (a - b) * (a - b) / (2 * n) = n / 2 * (r * r)) by (unfold r; field; lra).
      unfold phi. fold n. rewrite Ea at 3. rewrite Eb at 3. rewrite !X by lra.
      rewrite Sq. rewrite L2.
      assert (T : xlx (n + 1) - xlx n <= ln (n + 1) + 1).
      { unfold xlx. pose proof (ln_tangent (n + 1) n ltac:(lra) P) as Q'. replace ((n + 1 - n) / n) with (/ n) in Q' by (field; lra).
        assert (n * ln (n + 1) <= n * ln n + 1); [|lra]. apply Rmult_le_compat_l with (r := n) in Q'; [|lra].
        rewrite Rmult_plus_distr_l, Rinv_r in Q' by lra. exact Q'. }
      assert (Q2 : n / 2 * (r * r) <= n / 2 * (xlx (1 + r) + xlx (1 - r))) by (apply Rmult_le_compat_l; lra).
      unfold xlx at 2 in T. 
      assert (Fin : n / 2 * (1 + r) * (ln n - ln 2) + n / 2 * (1 - r) * (ln n - ln 2) + n * ln 2 = n * ln n) by field. lra. }
  intros a b A B. destruct (Rle_dec b a); [apply W; lra|].
  rewrite phi_sym, (Rplus_comm a b). replace ((a - b) * (a - b)) with ((b - a) * (b - a)) by ring. apply W. lra.
Qed.

(** *** one coordinate: [z] the sum of the negative gradients, [g2] of their magnitudes, [s] the scale *)
Definition pot (s z g2 : R) : R := phi ((g2 + z) / (2 * s)) ((g2 - z) / (2 * s)).
Lemma abs_le : forall z g, Rabs z <= g -> - g <= z <= g.
Proof. intros z g H. unfold Rabs in H. destruct (Rcase_abs z); lra. Qed.
Lemma div_nonneg : forall x s, 0 <= x -> 0 < s -> 0 <= x / s.
Proof. intros. apply Rmult_le_pos; auto. apply Rlt_le, Rinv_0_lt_compat; auto. Qed.
Lemma pot_factor : forall s z g2 g, 0 < s -> Rabs z <= g2 -> Rabs g <= s -> 0 < 1 - g * z / (s * (s + g2)).
Proof.
  intros s z g2 g S Z G. apply abs_le in Z, G. assert (P : 0 < s * (s + g2)) by nra.
  apply Rmult_lt_reg_r with (s * (s + g2)); auto. rewrite Rmult_0_l.
  replace ((1 - g * z / (s * (s + g2))) * (s * (s + g2))) with (s * (s + g2) - g * z) by (field; split; lra). nra.
Qed.
Lemma pot_step : forall s z g2 g, 0 < s -> Rabs z <= g2 -> Rabs g <= s ->
  pot s (z - g) (g2 + Rabs g) - pot s z g2 <= ln (1 - g * z / (s * (s + g2))).
Proof.
  intros s z g2 g S Z G. pose proof (abs_le _ _ Z) as Z'. pose proof (abs_le _ _ G) as G'. unfold pot.
  assert (A : 0 <= (g2 + z) / (2 * s)) by (apply div_nonneg; lra). assert (B : 0 <= (g2 - z) / (2 * s)) by (apply div_nonneg; lra).
  assert (C : forall x, 0 <= x <= s -> 0 <= x / s <= 1).
  { intros x X. split; [apply div_nonneg; lra|]. apply Rmult_le_reg_r with s; auto. unfold Rdiv. rewrite Rmult_assoc, Rinv_l by lra. lra. }
  assert (M : (g2 + z) / (2 * s) + (g2 - z) / (2 * s) + 1 = (s + g2) / s) by (field; lra).
  assert (M' : (g2 - z) / (2 * s) + (g2 + z) / (2 * s) + 1 = (s + g2) / s) by (field; lra).
  unfold Rabs. destruct (Rcase_abs g) as [N|N].
  - pose proof (phi_step _ _ (- g / s) A B (C (- g) ltac:(lra))) as Q. rewrite M in Q.
    replace ((g2 + - g + (z - g)) / (2 * s)) with ((g2 + z) / (2 * s) + - g / s) by (field; lra).
    replace ((g2 + - g - (z - g)) / (2 * s)) with ((g2 - z) / (2 * s)) by (field; lra).
    replace (1 - g * z / (s * (s + g2))) with (1 + - g / s * (((g2 + z) / (2 * s) - (g2 - z) / (2 * s)) / ((s + g2) / s))) by (field; lra). exact Q.
  - rewrite (phi_sym ((g2 + z) / (2 * s)) ((g2 - z) / (2 * s))). pose proof (phi_step _ _ (g / s) B A (C g ltac:(lra))) as Q. rewrite M' in Q.
    replace ((g2 + g + (z - g)) / (2 * s)) with ((g2 + z) / (2 * s)) by (field; lra).
    replace ((g2 + g - (z - g)) / (2 * s)) with ((g2 - z) / (2 * s) + g / s) by (field; lra).
    rewrite (phi_sym ((g2 + z) / (2 * s)) ((g2 - z) / (2 * s) + g / s)).
    replace (1 - g * z / (s * (s + g2))) with (1 + g / s * (((g2 - z) / (2 * s) - (g2 + z) / (2 * s)) / ((s + g2) / s))) by (field; lra). exact Q.
Qed.
Lemma pot_scale : forall s s' z g2, 0 < s <= s' -> Rabs z <= g2 -> pot s' z g2 <= pot s z g2 + ln (s' / s).
Proof.
  intros s s' z g2 S Z. pose proof (abs_le _ _ Z) as Z'. unfold pot.
  assert (A : 0 <= (g2 + z) / (2 * s)) by (apply div_nonneg; lra). assert (B : 0 <= (g2 - z) / (2 * s)) by (apply div_nonneg; lra).
  assert (C : 0 < s / s' <= 1).
  { split; [apply Rdiv_lt_0_compat; lra|]. apply Rmult_le_reg_r with s'; [lra|]. unfold Rdiv. rewrite Rmult_assoc, Rinv_l by lra. lra. }
  pose proof (phi_scale _ _ _ A B C) as Q.
  replace (s / s' * ((g2 + z) / (2 * s))) with ((g2 + z) / (2 * s')) in Q by (field; lra).
  replace (s / s' * ((g2 - z) / (2 * s))) with ((g2 - z) / (2 * s')) in Q by (field; lra).
  assert (E : ln (s' / s) = - ln (s / s')) by (rewrite <- ln_Rinv by lra; f_equal; field; lra). lra.
Qed.
Lemma pot_0 : forall s, 0 < s -> pot s 0 0 = 0.
Proof. intros s S. unfold pot. replace ((0 + 0) / (2 * s)) with 0 by (field; lra). replace ((0 - 0) / (2 * s)) with 0 by (field; lra). apply phi_0. Qed.
Lemma pot_lower : forall s z g2, 0 < s -> Rabs z <= g2 -> z * z / (2 * s * g2) - ln (g2 / s + 1) - 1 <= pot s z g2.
Proof.
  intros s z g2 S Z. pose proof (abs_le _ _ Z) as Z'. unfold pot.
  destruct (Req_dec g2 0) as [E|N].
  - assert (z = 0) as -> by lra. rewrite E. fold (pot s 0 0). rewrite pot_0 by auto.
    replace (0 / s + 1) with 1 by (field; lra). rewrite ln_1. unfold Rdiv. rewrite Rmult_0_l, Rmult_0_l. lra.
  - assert (A : 0 <= (g2 + z) / (2 * s)) by (apply div_nonneg; lra). assert (B : 0 <= (g2 - z) / (2 * s)) by (apply div_nonneg; lra).
    pose proof (phi_lower _ _ A B) as Q.
    replace ((g2 + z) / (2 * s) + (g2 - z) / (2 * s)) with (g2 / s) in Q by (field; lra).
    replace ((g2 + z) / (2 * s) - (g2 - z) / (2 * s)) with (z / s) in Q by (field; lra).
    replace (z / s * (z / s) / (2 * (g2 / s))) with (z * z / (2 * s * g2)) in Q by (field; lra). exact Q.
Qed.

(** *** what the wealth pays for *)
Definition regret (alpha l s g2 u : R) : R := alpha + Rabs u * sqrt (2 * s * g2 * ln (1 + exp 1 * Rabs u * g2 * (s + g2) / (alpha * l))).
Lemma wealth_lower : forall alpha l s z g2 w, 0 < alpha -> 0 < l <= s -> Rabs z <= g2 -> 0 < w ->
  ln alpha + pot s z g2 - ln (s / l) <= ln w -> alpha * l / (exp 1 * (s + g2)) * exp (z * z / (2 * s * g2)) <= w.
Proof.
  intros alpha l s z g2 w A L Z W H. pose proof (abs_le _ _ Z) as Z'. pose proof (pot_lower s z g2 ltac:(lra) Z) as P.
  rewrite <- (exp_ln w W). assert (E1 : 0 < exp 1) by apply exp_pos. assert (Sp : 0 < s + g2) by lra.
  assert (Q : alpha * l / (exp 1 * (s + g2)) = exp (ln alpha - ln (g2 / s + 1) - 1 - ln (s / l))).
  { replace (ln alpha - ln (g2 / s + 1) - 1 - ln (s / l)) with (ln alpha + - ln (g2 / s + 1) + - (1) + - ln (s / l)) by ring.
    assert (0 < g2 / s + 1) by (pose proof (div_nonneg g2 s ltac:(lra) ltac:(lra)); lra).
    assert (0 < s / l) by (apply Rdiv_lt_0_compat; lra).
    rewrite !exp_plus, !exp_Ropp, !exp_ln by lra. field. repeat split; lra. }
  rewrite Q, <- exp_plus. set (a := ln alpha - ln (g2 / s + 1) - 1 - ln (s / l)).
  assert (X : a + z * z / (2 * s * g2) <= ln w) by (unfold a; lra). destruct X as [X|X].
  - apply Rlt_le, exp_increasing, X.
  - rewrite X. apply Rle_refl.
Qed.
Lemma regret_bound : forall alpha l s z g2 w u, 0 < alpha -> 0 < l <= s -> Rabs z <= g2 -> 0 < w ->
  ln alpha + pot s z g2 - ln (s / l) <= ln w -> alpha - w + u * z <= regret alpha l s g2 u.
Proof.
  intros alpha l s z g2 w u A L Z W H. pose proof (wealth_lower _ _ _ _ _ _ A L Z W H) as Q. unfold regret.
  assert (U : u * z <= Rabs u * Rabs z) by (rewrite <- Rabs_mult; apply Rle_abs).
  set (k := exp 1 * Rabs u * g2 * (s + g2) / (alpha * l)). pose proof (Rabs_pos z) as Pz. pose proof (Rabs_pos u) as Pu.
  assert (K : 0 <= k).
  { unfold k. apply div_nonneg; [|nra]. pose proof (exp_pos 1). apply Rmult_le_pos; [apply Rmult_le_pos; [apply Rmult_le_pos|]|]; lra. }
  assert (Sq : 0 <= Rabs u * sqrt (2 * s * g2 * ln (1 + k))) by (apply Rmult_le_pos; [auto|apply sqrt_pos]).
  destruct (Rle_dec (Rabs u * Rabs z) w) as [C|C]; [lra|].
  assert (Pw : w < Rabs u * g2) by nra.
  assert (G : 0 < g2) by nra.
  assert (X : exp (z * z / (2 * s * g2)) <= 1 + k).
  { assert (T : 0 < alpha * l / (exp 1 * (s + g2))) by (pose proof (exp_pos 1); apply Rdiv_lt_0_compat; nra).
    apply Rmult_le_reg_l with (alpha * l / (exp 1 * (s + g2))); auto. apply Rle_trans with w; auto.
    apply Rle_trans with (alpha * l / (exp 1 * (s + g2)) * k).
    - unfold k. pose proof (exp_pos 1).
      replace (alpha * l / (exp 1 * (s + g2)) * (exp 1 * Rabs u * g2 * (s + g2) / (alpha * l))) with (Rabs u * g2) by (field; repeat split; lra). lra.
    - nra. }
  assert (Y : z * z / (2 * s * g2) <= ln (1 + k)).
  { rewrite <- (ln_exp (z * z / (2 * s * g2))). destruct (Rle_lt_or_eq_dec _ _ X) as [X'|X'].
    - apply Rlt_le, ln_increasing; [apply exp_pos|auto].
    - rewrite X'. apply Rle_refl. }
  assert (D : Rabs z <= sqrt (2 * s * g2 * ln (1 + k))).
  { apply Rsqr_incr_0_var; [|apply sqrt_pos]. rewrite Rsqr_sqrt.
    - unfold Rsqr. rewrite <- Rabs_mult. rewrite Rabs_right by nra.
      apply Rmult_le_compat_l with (r := 2 * s * g2) in Y; [|nra].
      replace (2 * s * g2 * (z * z / (2 * s * g2))) with (z * z) in Y by (field; lra). exact Y.
    - apply Rmult_le_pos; [nra|]. rewrite <- ln_1. destruct (Req_dec k 0) as [-> |]; [rewrite Rplus_0_r; lra|]. apply Rlt_le, ln_increasing; lra. }
  assert (Rabs u * Rabs z <= Rabs u * sqrt (2 * s * g2 * ln (1 + k))) by (apply Rmult_le_compat_l; auto). lra.
Qed.
Lemma regret_mono : forall alpha l s g2 s' g2' u, 0 < alpha -> 0 < l -> 0 <= s <= s' -> 0 <= g2 <= g2' ->
  regret alpha l s g2 u <= regret alpha l s' g2' u.
Proof.
  intros alpha l s g2 s' g2' u A L S G. unfold regret. apply Rplus_le_compat_l. apply Rmult_le_compat_l; [apply Rabs_pos|]. apply sqrt_le_1_alt.
  pose proof (Rabs_pos u) as Pu. pose proof (exp_pos 1) as Pe.
  assert (P : 0 < alpha * l) by nra. assert (I : 0 < / (alpha * l)) by now apply Rinv_0_lt_compat.
  set (k := exp 1 * Rabs u) in *. assert (Pk : 0 <= k) by (unfold k; nra).
  assert (X : k * g2 * (s + g2) / (alpha * l) <= k * g2' * (s' + g2') / (alpha * l)).
  { apply Rmult_le_compat_r; [lra|]. rewrite !Rmult_assoc. apply Rmult_le_compat_l; auto. apply Rmult_le_compat; lra. }
  assert (X0 : 0 <= k * g2 * (s + g2) / (alpha * l)) by (apply div_nonneg; auto; apply Rmult_le_pos; [apply Rmult_le_pos|]; lra).
  assert (Y : ln (1 + k * g2 * (s + g2) / (alpha * l)) <= ln (1 + k * g2' * (s' + g2') / (alpha * l))).
  { destruct X as [X|X]; [apply Rlt_le, ln_increasing; lra|rewrite X; lra]. }
  assert (Y0 : 0 <= ln (1 + k * g2 * (s + g2) / (alpha * l))).
  { rewrite <- ln_1. destruct X0 as [X0|X0]; [apply Rlt_le, ln_increasing; lra|rewrite <- X0, Rplus_0_r; lra]. }
  apply Rmult_le_compat; [nra|auto| |auto]. rewrite !Rmult_assoc. apply Rmult_le_compat_l; [lra|]. apply Rmult_le_compat; lra.
Qed.
