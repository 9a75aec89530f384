(** How well the logistic loss approximates the Lambert function (C64): real analysis. *)
From Coq Require Import Reals Lra Psatz.
Open Scope R_scope.

(** ** differentiating terms *)
Lemma D_eq : forall f x a b, derivable_pt_lim f x a -> a = b -> derivable_pt_lim f x b.
Proof. intros; now subst. Qed.
Lemma D_const : forall c x, derivable_pt_lim (fun _ => c) x 0.
Proof. exact derivable_pt_lim_const. Qed.
Lemma D_id : forall x, derivable_pt_lim (fun y => y) x 1.
Proof. exact derivable_pt_lim_id. Qed.
Lemma D_add : forall f g x a b, derivable_pt_lim f x a -> derivable_pt_lim g x b -> derivable_pt_lim (fun y => f y + g y) x (a + b).
Proof. exact derivable_pt_lim_plus. Qed.
Lemma D_sub : forall f g x a b, derivable_pt_lim f x a -> derivable_pt_lim g x b -> derivable_pt_lim (fun y => f y - g y) x (a - b).
Proof. exact derivable_pt_lim_minus. Qed.
Lemma D_opp : forall f x a, derivable_pt_lim f x a -> derivable_pt_lim (fun y => - f y) x (- a).
Proof. exact derivable_pt_lim_opp. Qed.
Lemma D_mul : forall f g x a b, derivable_pt_lim f x a -> derivable_pt_lim g x b ->
  derivable_pt_lim (fun y => f y * g y) x (a * g x + f x * b).
Proof. exact derivable_pt_lim_mult. Qed.
Lemma D_div : forall f g x a b, derivable_pt_lim f x a -> derivable_pt_lim g x b -> g x <> 0 ->
  derivable_pt_lim (fun y => f y / g y) x ((a * g x - b * f x) / Rsqr (g x)).
Proof. exact derivable_pt_lim_div. Qed.
Lemma D_exp : forall f x a, derivable_pt_lim f x a -> derivable_pt_lim (fun y => exp (f y)) x (exp (f x) * a).
Proof. intros f x a H. exact (derivable_pt_lim_comp f exp x a _ H (derivable_pt_lim_exp (f x))). Qed.
Lemma D_ln : forall f x a, derivable_pt_lim f x a -> 0 < f x -> derivable_pt_lim (fun y => ln (f y)) x (/ f x * a).
Proof. intros f x a H P. exact (derivable_pt_lim_comp f ln x a _ H (derivable_pt_lim_ln (f x) P)). Qed.

Lemma falls : forall f f' a b, a <= b -> (forall c, a <= c <= b -> derivable_pt_lim f c (f' c)) ->
  (forall c, a < c < b -> f' c <= 0) -> f b <= f a.
Proof.
  intros f f' a b L D N. destruct L as [L|L]; [|subst; lra].
  destruct (MVT_cor2 f f' a b L D) as (c & E & I). specialize (N c I). nra.
Qed.
Lemma rises : forall f f' a b, a <= b -> (forall c, a <= c <= b -> derivable_pt_lim f c (f' c)) ->
  (forall c, a < c < b -> 0 <= f' c) -> f a <= f b.
Proof.
  intros f f' a b L D N. destruct L as [L|L]; [|subst; lra].
  destruct (MVT_cor2 f f' a b L D) as (c & E & I). specialize (N c I). nra.
Qed.

(** ** the function v + ln v *)
Lemma ln_below : forall y, 0 < y -> ln y <= y - 1.
Proof. intros y H. pose proof (exp_ineq1_le (ln y)) as Q. rewrite exp_ln in Q; lra. Qed.
Lemma ln_above : forall y, 0 < y -> 1 - / y <= ln y.
Proof.
  intros y H. pose proof (ln_below (/ y) (Rinv_0_lt_compat _ H)) as Q. rewrite ln_Rinv in Q by auto. lra.
Qed.
Lemma near_root : forall A V, 0 < A -> 0 < V -> Rabs (A - V) <= Rabs ((V + ln V) - (A + ln A)).
Proof.
  intros A V HA HV. destruct (Rle_dec A V) as [L|L].
  - assert (ln A <= ln V) by (destruct L as [L|L]; [left; now apply ln_increasing|subst; lra]).
    rewrite Rabs_left1 by lra. rewrite Rabs_right by lra. lra.
  - assert (ln V < ln A) by (apply ln_increasing; lra).
    rewrite Rabs_right by lra. rewrite Rabs_left1 by lra. lra.
Qed.

(** ** one step from a guess: [e] is the relative residual, [s] = 1 / (1 + guess) *)
Section Step.
Context (s : R).
Definition sl : R := 2/3 - s.
Definition den (e : R) : R := 1 + sl * e.
Definition del (e : R) : R := e + s * (e * e) / (2 * den e).
Definition rho (e : R) : R := del e - ln (1 + del e) - e * e / (2 * den e).
Definition b0 : R := 4/9 - 8/3 * s + 2 * (s * s).
Definition b1 : R := sl * (4/3 - s) * (1/3 - s).
Definition rho' (e : R) : R := e * e * e * (b0 + b1 * e) / (4 * (den e * den e * den e) * (1 + del e)).

Lemma del_der : forall e, den e <> 0 ->
  derivable_pt_lim del e (1 + s * (e * (2 + sl * e)) / (2 * (den e * den e))).
Proof.
  intros e N. unfold del. eapply D_eq.
  - apply D_add; [apply D_id|]. apply D_div; [apply D_mul; [apply D_const|apply D_mul; apply D_id]| |].
    + unfold den. apply D_mul; [apply D_const|]. apply D_add; [apply D_const|]. apply D_mul; [apply D_const|apply D_id].
    + intros Q. apply N. lra.
  - unfold Rsqr. unfold den in *. field. exact N.
Qed.
Lemma rho_der : forall e, den e <> 0 -> 0 < 1 + del e -> derivable_pt_lim rho e (rho' e).
Proof.
  intros e N P. unfold rho. eapply D_eq.
  - apply D_sub; [apply D_sub; [now apply del_der|]|].
    + apply D_ln; [|exact P]. apply D_add; [apply D_const|now apply del_der].
    + apply D_div; [apply D_mul; apply D_id| |].
      * unfold den. apply D_mul; [apply D_const|]. apply D_add; [apply D_const|]. apply D_mul; [apply D_const|apply D_id].
      * intros Q. apply N. lra.
  - unfold rho', Rsqr, b0, b1. assert (P' : 1 + del e <> 0) by lra. unfold del, den, sl in *.
    field. assert (N' : 3 + (2 - s * 3) * e <> 0) by (intros Q; apply N; lra). split; [exact N'|].
    replace (2 * (3 + (2 - s * 3) * e) + (e * (2 * (3 + (2 - s * 3) * e)) + s * (e * e) * 3)) with
      ((1 + (e + s * (e * e) / (2 * (1 + (2 / 3 - s) * e)))) * (2 * (3 + (2 - s * 3) * e))) by (field; exact N').
    apply Rmult_integral_contrapositive. split; [exact P'|]. intros Q; apply N'; lra.
Qed.

(** the bound near 0 *)
Context (Hs : 0 <= s <= 1).
Lemma b0_bound : -4/9 <= b0 <= 4/9.
Proof.
  unfold b0. pose proof (Rle_0_sqr (s - 2/3)) as Q. unfold Rsqr in Q.
  assert (0 <= s * (1 - s)) by (apply Rmult_le_pos; lra). split; lra.
Qed.
Lemma b1_bound : -3/10 <= b1 <= 3/10.
Proof.
  unfold b1, sl. assert (0 <= s * (1 - s)) by (apply Rmult_le_pos; lra).
  assert (P : 0 <= (4/3 - s) <= 4/3) by lra.
  assert (Q : -1/36 <= (2/3 - s) * (1/3 - s) <= 2/9).
  { pose proof (Rle_0_sqr (s - 1/2)) as Q. unfold Rsqr in Q. split; lra. }
  replace ((2/3 - s) * (4/3 - s) * (1/3 - s)) with ((2/3 - s) * (1/3 - s) * (4/3 - s)) by ring.
  set (q := (2/3 - s) * (1/3 - s)) in *. set (p := 4/3 - s) in *. split; nra.
Qed.
Lemma den_low : forall e, -18/100 <= e <= 18/100 -> 88/100 <= den e.
Proof. intros e H. unfold den, sl. nra. Qed.
Lemma del_low : forall e, -18/100 <= e <= 18/100 -> 82/100 <= 1 + del e.
Proof.
  intros e H. pose proof (den_low e H) as D. unfold del.
  assert (0 <= s * (e * e) / (2 * den e)); [|lra]. apply Rmult_le_pos; [nra|]. left. apply Rinv_0_lt_compat. lra.
Qed.
Lemma low_cube : forall d x, 88/100 <= d -> 82/100 <= x -> 55/100 <= d * d * d * x.
Proof. intros d x Hd Hx. assert (7744/10000 <= d * d) by nra. assert (68/100 <= d * d * d) by nra. nra. Qed.

Definition cR : R := 23/100.
Lemma rho'_bound : forall e, -18/100 <= e <= 18/100 -> Rabs (rho' e) <= cR * (Rabs e * Rabs e * Rabs e).
Proof.
  intros e H. pose proof (den_low e H) as D. pose proof (del_low e H) as X. pose proof (low_cube _ _ D X) as C.
  unfold rho'. set (Q := den e * den e * den e) in *. set (x := 1 + del e) in *.
  assert (QX : 22/10 <= 4 * Q * x) by lra.
  unfold Rdiv. rewrite !Rabs_mult. rewrite (Rabs_right (/ (4 * Q * x))); [|left; apply Rinv_0_lt_compat; lra].
  assert (Y : Rabs (b0 + b1 * e) <= 5/10).
  { pose proof b0_bound. pose proof b1_bound. apply Rabs_le. split; nra. }
  assert (I : / (4 * Q * x) <= 10/22) by (replace (10/22) with (/ (22/10)) by lra; apply Rinv_le_contravar; lra).
  assert (I0 : 0 < / (4 * Q * x)) by (apply Rinv_0_lt_compat; lra).
  set (k := / (4 * Q * x)) in *. pose proof (Rabs_pos (b0 + b1 * e)) as Y0. set (y := Rabs (b0 + b1 * e)) in *.
  pose proof (Rabs_pos e) as E0. set (z := Rabs e) in *. assert (Z : 0 <= z * z * z) by nra.
  assert (YK : y * k <= 23/100) by nra. unfold cR. replace (z * z * z * y * k) with (z * z * z * (y * k)) by ring. nra.
Qed.
Lemma rho_0 : rho 0 = 0.
Proof. unfold rho, del, den. replace (0 + s * (0 * 0) / (2 * (1 + sl * 0))) with 0 by (field; lra). rewrite Rplus_0_r, ln_1. field. Qed.

Lemma quart_der : forall k e, derivable_pt_lim (fun e => k * (e * e * (e * e))) e (4 * k * (e * e * e)).
Proof.
  intros k e. eapply D_eq; [apply D_mul; [apply D_const|apply D_mul; apply D_mul; apply D_id]|]. cbv beta. ring.
Qed.
Lemma rho_bound : forall e, -18/100 <= e <= 18/100 -> Rabs (rho e) <= cR / 4 * (e * e * (e * e)).
Proof.
  intros e H.
  assert (DR : forall c, -18/100 <= c <= 18/100 -> derivable_pt_lim rho c (rho' c)).
  { intros c Hc. pose proof (den_low c Hc). pose proof (del_low c Hc). apply rho_der; lra. }
  assert (D1 : forall c, -18/100 <= c <= 18/100 -> derivable_pt_lim (fun c => rho c - cR / 4 * (c * c * (c * c))) c (rho' c - cR * (c * c * c))).
  { intros c Hc. eapply D_eq; [apply D_sub; [now apply DR|apply quart_der]|]. field. }
  assert (D2 : forall c, -18/100 <= c <= 18/100 -> derivable_pt_lim (fun c => rho c + cR / 4 * (c * c * (c * c))) c (rho' c + cR * (c * c * c))).
  { intros c Hc. eapply D_eq; [apply D_add; [now apply DR|apply quart_der]|]. field. }
  pose proof rho_0 as R0. apply Rabs_le. destruct (Rle_dec 0 e) as [L|L].
  - assert (B : forall c, 0 < c < e -> - (cR * (c * c * c)) <= rho' c <= cR * (c * c * c)).
    { intros c Hc. pose proof (rho'_bound c ltac:(lra)) as Q. rewrite (Rabs_right c) in Q by lra.
      unfold Rabs in Q. destruct (Rcase_abs (rho' c)); lra. }
    pose proof (falls _ _ 0 e L (fun c Hc => D1 c ltac:(lra)) (fun c Hc => ltac:(specialize (B c Hc); lra))) as F1.
    pose proof (rises _ _ 0 e L (fun c Hc => D2 c ltac:(lra)) (fun c Hc => ltac:(specialize (B c Hc); lra))) as F2.
    cbv beta in F1, F2. rewrite R0 in F1, F2. lra.
  - assert (B : forall c, e < c < 0 -> cR * (c * c * c) <= rho' c <= - (cR * (c * c * c))).
    { intros c Hc. pose proof (rho'_bound c ltac:(lra)) as Q. rewrite (Rabs_left c) in Q by lra.
      unfold Rabs in Q. destruct (Rcase_abs (rho' c)); lra. }
    assert (L' : e <= 0) by lra.
    pose proof (rises _ _ e 0 L' (fun c Hc => D1 c ltac:(lra)) (fun c Hc => ltac:(specialize (B c Hc); lra))) as F1.
    pose proof (falls _ _ e 0 L' (fun c Hc => D2 c ltac:(lra)) (fun c Hc => ltac:(specialize (B c Hc); lra))) as F2.
    cbv beta in F1, F2. rewrite R0 in F1, F2. lra.
Qed.
Lemma rho_small : forall e, -18/100 <= e <= 18/100 -> Rabs (rho e) <= 7/100000.
Proof.
  intros e H. pose proof (rho_bound e H) as Q. unfold cR in Q. assert (e * e <= 324/10000) by nra.
  assert (0 <= e * e) by nra. assert (e * e * (e * e) <= 105/100000) by nra. lra.
Qed.
End Step.

(** ** numerical bounds of the exponential *)
Lemma exp_half : forall z a b, 0 <= a -> a <= exp (z / 2) -> b <= a * a -> b <= exp z.
Proof.
  intros z a b A E B. replace z with (z / 2 + z / 2) by lra. rewrite exp_plus. nra.
Qed.
Lemma exp_start : forall z a, a <= 1 + z -> a <= exp z.
Proof. intros z a H. pose proof (exp_ineq1_le z). lra. Qed.
Lemma exp_1 : 26/10 <= exp 1.
Proof.
  apply (exp_half _ (1617/1000)); try lra. apply (exp_half _ (1272/1000)); try lra. apply (exp_half _ (1128/1000)); try lra.
  apply (exp_half _ (10625/10000)); try lra. apply exp_start. lra.
Qed.
Lemma exp_329 : 22 <= exp (329/100).
Proof.
  apply (exp_half _ (4699/1000)); try lra. apply (exp_half _ (2168/1000)); try lra. apply (exp_half _ (14727/10000)); try lra.
  apply (exp_half _ (12136/10000)); try lra. apply (exp_half _ (110166/100000)); try lra. apply (exp_half _ (10500/10000)); try lra.
  apply exp_start. lra.
Qed.
Lemma exp_3 : 18 <= exp 3.
Proof.
  apply (exp_half _ (4251/1000)); try lra. apply (exp_half _ (2062/1000)); try lra. apply (exp_half _ (1436/1000)); try lra.
  apply (exp_half _ (11984/10000)); try lra. apply (exp_half _ (10948/10000)); try lra. apply (exp_half _ (10464/10000)); try lra.
  apply exp_start. lra.
Qed.
Lemma exp_116 : 296/100 <= exp (116/100).
Proof.
  apply (exp_half _ (1721/1000)); try lra. apply (exp_half _ (1315/1000)); try lra. apply (exp_half _ (1150/1000)); try lra.
  apply (exp_half _ (10725/10000)); try lra. apply exp_start. lra.
Qed.
Lemma xexp : forall z, z * exp (- z) <= 10/26.
Proof.
  intros z. pose proof (exp_ineq1_le (z - 1)) as Q. pose proof exp_1 as E1.
  replace (z - 1) with (z + - (1)) in Q by ring. rewrite exp_plus in Q.
  assert (Z : exp z * exp (- z) = 1) by (rewrite <- exp_plus; replace (z + - z) with 0 by ring; apply exp_0).
  assert (I : exp (- (1)) <= 10/26).
  { rewrite exp_Ropp. replace (10/26) with (/ (26/10)) by lra. apply Rinv_le_contravar; lra. }
  pose proof (exp_pos (- z)) as P. pose proof (exp_pos z) as P'. pose proof (exp_pos (- (1))) as P1.
  assert (z * exp (- z) <= exp z * exp (- (1)) * exp (- z)) by (apply Rmult_le_compat_r; lra).
  replace (exp z * exp (- (1)) * exp (- z)) with (exp (- (1))) in H; [lra|].
  replace (exp z * exp (- (1)) * exp (- z)) with (exp z * exp (- z) * exp (- (1))) by ring. rewrite Z. ring.
Qed.
Lemma exp_neg_quad : forall e, e <= 0 -> exp e <= 1 + e + e * e / 2.
Proof.
  intros e H.
  assert (D : forall c, derivable_pt_lim (fun c => exp c - (1 + c + c * c / 2)) c (exp c - (1 + c))).
  { intros c. eapply D_eq; [apply D_sub; [apply derivable_pt_lim_exp|apply D_add; [apply D_add; [apply D_const|apply D_id]|]]|].
    - unfold Rdiv. apply D_mul; [apply D_mul; apply D_id|apply D_const].
    - cbv beta. field. }
  pose proof (rises _ _ e 0 H (fun c _ => D c) (fun c _ => ltac:(pose proof (exp_ineq1_le c); lra))) as Q.
  cbv beta in Q. rewrite exp_0 in Q. lra.
Qed.

(** ** the guess and the step *)
Section Guess.
Context (x w r : R) (Hw : 0 < w) (Hx : x = r + w + ln w).
Let t : R := 1 + w.
Let u : R := 2 * t * (t + 2 * r / 3).
Let s : R := / t.
Let e : R := r / t.
Let A : R := w * (1 + r / t * (u - r) / (u - 2 * r)).
Lemma s_range : 0 < s /\ s < 1 /\ s * t = 1 /\ 1 - s <= w.
Proof.
  unfold s, t. assert (0 < / (1 + w)) by (apply Rinv_0_lt_compat; lra).
  assert (/ (1 + w) * (1 + w) = 1) by (apply Rinv_l; lra). repeat split; auto; nra.
Qed.
Lemma r_te : r = t * e.
Proof. unfold e, t. field. lra. Qed.
Lemma A_del : den s e <> 0 -> A = w * (1 + del s e).
Proof.
  intros N. unfold A. f_equal. f_equal. destruct s_range as (S0 & _ & St & _).
  assert (T : t <> 0) by (unfold t; lra).
  assert (U : u - 2 * r = 2 * (t * t) * den s e).
  { unfold u, den, sl. rewrite r_te. replace (2 * (t * t) * (1 + (2 / 3 - s) * e)) with
      (2 * t * t + 4 / 3 * (t * t * e) - 2 * t * e * (s * t)) by field. rewrite St. field. }
  change (r / t) with e. rewrite U. unfold del.
  assert (U' : u - r = 2 * (t * t) * den s e + t * e) by (rewrite <- U, <- r_te; ring). rewrite U'.
  assert (T' : t = / s) by (unfold s; now rewrite Rinv_inv). rewrite T'. field. split; [exact N|lra].
Qed.
Lemma A_residual : den s e <> 0 -> 0 < 1 + del s e -> x - (A + ln A) = rho s e.
Proof.
  intros N P. rewrite A_del by exact N. rewrite ln_mult by auto. rewrite Hx. unfold rho.
  destruct s_range as (S0 & _ & St & _).
  assert (Q : r - w * del s e = del s e - e * e / (2 * den s e)); [|lra].
  rewrite r_te. replace w with (t - 1) by (unfold t; ring). unfold del.
  replace (t * e - (t - 1) * (e + s * (e * e) / (2 * den s e))) with
    (e + s * (e * e) / (2 * den s e) - (s * t) * (e * e / (2 * den s e))) by (field; exact N).
  rewrite St. ring.
Qed.

(** a small residual *)
Lemma small_residual : forall V, 0 < V -> V + ln V = x -> -18/100 <= e <= 18/100 -> Rabs (A - V) <= 9/100000.
Proof.
  intros V HV EV HE. destruct s_range as (S0 & S1 & St & _). assert (SR : 0 <= s <= 1) by lra.
  pose proof (den_low s SR e HE) as D. pose proof (del_low s SR e HE) as P.
  assert (HA : 0 < A) by (rewrite A_del by lra; nra).
  pose proof (near_root A V HA HV) as Q. rewrite EV, A_residual in Q by lra.
  pose proof (rho_small s SR e HE). lra.
Qed.

(** a large negative residual with a small guess *)
Definition pade (y : R) : R := (1 - 2/3 * y + y * y / 6) / (1 + y / 3).
Lemma pade_der : forall y, 0 <= y -> derivable_pt_lim (fun y => exp y * pade y) y (exp y * (y * y * y / (18 * ((1 + y / 3) * (1 + y / 3))))).
Proof.
  intros y H. unfold pade. eapply D_eq.
  - apply D_mul; [apply derivable_pt_lim_exp|]. unfold Rdiv. apply D_div.
    + apply D_add; [apply D_sub; [apply D_const|apply D_mul; [apply D_const|apply D_id]]|].
      apply D_mul; [apply D_mul; apply D_id|apply D_const].
    + apply D_add; [apply D_const|apply D_mul; [apply D_id|apply D_const]].
    + lra.
  - cbv beta. unfold Rsqr. field. lra.
Qed.
Lemma pade_0 : pade 0 = 1.
Proof. unfold pade. field. Qed.
Lemma pade_bound : forall y, 0 <= y -> 0 <= pade y - exp (- y) <= y * y * (y * y) / 72.
Proof.
  intros y H.
  pose proof (rises _ _ 0 y H (fun c Hc => pade_der c (proj1 Hc))) as Q1. cbv beta in Q1. rewrite pade_0, exp_0 in Q1.
  assert (D2 : forall c, 0 <= c -> derivable_pt_lim (fun c => exp c * (c * c * (c * c) / 72) - exp c * pade c) c
    (exp c * (c * c * (c * c) / 72 + c * c * c / 18 - c * c * c / (18 * ((1 + c / 3) * (1 + c / 3)))))).
  { intros c Hc. eapply D_eq; [apply D_sub; [|now apply pade_der]|].
    - apply D_mul; [apply derivable_pt_lim_exp|]. unfold Rdiv. apply D_mul; [apply D_mul; apply D_mul; apply D_id|apply D_const].
    - cbv beta. field. lra. }
  pose proof (rises _ _ 0 y H (fun c Hc => D2 c (proj1 Hc))) as Q2. cbv beta in Q2. rewrite pade_0, exp_0 in Q2.
  assert (Z : exp y * exp (- y) = 1) by (rewrite <- exp_plus; replace (y + - y) with 0 by ring; apply exp_0).
  pose proof (exp_pos y) as P. pose proof (exp_pos (- y)) as P'.
  assert (G1 : 1 <= exp y * pade y).
  { rewrite Rmult_1_l in Q1. apply Q1. intros c Hc. apply Rmult_le_pos; [left; apply exp_pos|].
    assert (0 <= c * c * c) by nra. assert (0 < (1 + c / 3) * (1 + c / 3)) by nra.
    apply Rmult_le_pos; [lra|]. left. apply Rinv_0_lt_compat. lra. }
  assert (G2 : exp y * pade y - 1 <= exp y * (y * y * (y * y) / 72)).
  { replace (1 * (0 * 0 * (0 * 0) / 72) - 1 * 1) with (-1) in Q2 by field.
    assert (-1 <= exp y * (y * y * (y * y) / 72) - exp y * pade y); [|lra]. apply Q2.
    intros c Hc. apply Rmult_le_pos; [left; apply exp_pos|].
    assert (C3 : 0 <= c * c * c) by nra. assert (C4 : 0 <= c * c * (c * c)) by nra.
    assert (C2 : 1 <= (1 + c / 3) * (1 + c / 3)) by nra.
    assert (c * c * c / (18 * ((1 + c / 3) * (1 + c / 3))) <= c * c * c / 18); [|lra].
    unfold Rdiv. apply Rmult_le_compat_l; auto. apply Rinv_le_contravar; lra. }
  split.
  - assert (exp (- y) * 1 <= exp (- y) * (exp y * pade y)) by (apply Rmult_le_compat_l; lra).
    replace (exp (- y) * (exp y * pade y)) with (exp y * exp (- y) * pade y) in H0 by ring. rewrite Z in H0. lra.
  - assert (exp (- y) * (exp y * pade y - 1) <= exp (- y) * (exp y * (y * y * (y * y) / 72))) by (apply Rmult_le_compat_l; lra).
    replace (exp (- y) * (exp y * pade y - 1)) with (exp y * exp (- y) * pade y - exp (- y)) in H0 by ring.
    replace (exp (- y) * (exp y * (y * y * (y * y) / 72))) with (exp y * exp (- y) * (y * y * (y * y) / 72)) in H0 by (field).
    rewrite Z in H0. lra.
Qed.

Lemma del_pade : forall y, 0 <= y -> 2/3 <= s -> Rabs (1 + del s (- y) - pade y) <= (1 - s) * (y * y).
Proof.
  intros y H S. destruct s_range as (S0 & S1 & _ & _).
  assert (D1 : 1 <= den s (- y)) by (unfold den, sl; nra).
  assert (E : 1 + del s (- y) - pade y = - ((1 - s) * (y * y) * ((1 - 2/3 * y) / (2 * (1 + y / 3) * den s (- y))))).
  { unfold del, pade. unfold den, sl in *. field. split; lra. }
  rewrite E, Rabs_Ropp, Rabs_mult. assert (Y : 0 <= (1 - s) * (y * y)) by nra. rewrite (Rabs_right ((1 - s) * (y * y))) by lra.
  assert (Rabs ((1 - 2 / 3 * y) / (2 * (1 + y / 3) * den s (- y))) <= 1); [|nra].
  assert (M : 2 * (1 + y / 3) <= 2 * (1 + y / 3) * den s (- y)) by nra.
  unfold Rdiv. rewrite Rabs_mult, (Rabs_right (/ _)) by (left; apply Rinv_0_lt_compat; lra).
  assert (N : Rabs (1 - 2 / 3 * y) <= 2 * (1 + y / 3) * den s (- y)) by (apply Rabs_le; lra).
  apply (Rmult_le_reg_r (2 * (1 + y / 3) * den s (- y))); [lra|]. rewrite Rmult_assoc, Rinv_l by lra. lra.
Qed.

Lemma large_residual : forall V, 0 < V -> V + ln V = x -> e <= 0 -> 2/3 <= s ->
  Rabs (A - V) <= w * (3/2 * w * (e * e) + e * e * (e * e) / 72).
Proof.
  intros V HV EV HE S. destruct s_range as (S0 & S1 & St & SW).
  assert (D1 : 1 <= den s e) by (unfold den, sl; nra).
  rewrite A_del by lra. set (g := V / w).
  assert (Vg : V = w * g) by (unfold g; field; lra).
  assert (G0 : 0 < g) by (unfold g; apply Rdiv_lt_0_compat; lra).
  assert (LG : ln g = e + w * (1 + e - g)).
  { assert (ln V = ln w + ln g) by (rewrite Vg at 1; now apply ln_mult). rewrite Hx in EV.
    pose proof r_te as R. assert (ln g = r + w - V) by lra. rewrite H0, R, Vg. unfold t. ring. }
  assert (G1 : 1 + e <= g).
  { destruct (Rle_dec (1 + e) g) as [L|L]; auto. exfalso. assert (e < ln g) by nra.
    apply exp_increasing in H. rewrite exp_ln in H by auto. pose proof (exp_ineq1_le e). lra. }
  assert (G2 : g <= exp e).
  { rewrite <- (exp_ln g) by auto. destruct (Req_dec (ln g) e) as [Q|Q]; [rewrite Q; lra|]. left. apply exp_increasing. nra. }
  pose proof (exp_neg_quad e HE) as G3.
  assert (E1 : exp e <= 1) by (rewrite <- exp_0; destruct HE as [HE|HE]; [left; now apply exp_increasing|rewrite HE; lra]).
  assert (G4 : exp e - g <= w * (e * e) / 2).
  { rewrite <- (exp_ln g) by auto. rewrite LG, exp_plus. pose proof (exp_ineq1_le (w * (1 + e - g))) as Q.
    pose proof (exp_pos e) as P. assert (B : - (w * (1 + e - g)) <= w * (e * e) / 2) by nra.
    assert (0 <= w * (e * e) / 2) by nra.
    assert (exp e * (1 + w * (1 + e - g)) <= exp e * exp (w * (1 + e - g))) by (apply Rmult_le_compat_l; lra).
    nra. }
  assert (Y : 0 <= - e) by lra.
  pose proof (del_pade (- e) Y S) as B1. rewrite Ropp_involutive in B1.
  pose proof (pade_bound (- e) Y) as B2. rewrite Ropp_involutive in B2.
  replace (- e * - e) with (e * e) in * by ring.
  assert (B1' : (1 - s) * (e * e) <= w * (e * e)) by nra.
  assert (B3 : - (w * (e * e)) <= 1 + del s e - pade (- e) <= w * (e * e)).
  { unfold Rabs in B1. destruct (Rcase_abs (1 + del s e - pade (- e))); lra. }
  replace (w * (1 + del s e) - V) with (w * (1 + del s e - g)) by (rewrite Vg; ring).
  rewrite Rabs_mult, (Rabs_right w) by lra. apply Rmult_le_compat_l; [lra|]. apply Rabs_le. 
  assert (0 <= w * (e * e)) by nra. assert (0 <= e * e * (e * e)) by nra. split; lra.
Qed.
End Guess.

(** ** all arguments *)
Definition improved (w r : R) : R :=
  w * (1 + r / (1 + w) * (2 * (1 + w) * (1 + w + 2 * r / 3) - r) / (2 * (1 + w) * (1 + w + 2 * r / 3) - 2 * r)).

Lemma ratio_range : forall r t k, 0 < t -> - k * t <= r <= k * t -> - k <= r / t <= k.
Proof.
  intros r t k T (L & H). unfold Rdiv. assert (I : 0 < / t) by now apply Rinv_0_lt_compat.
  assert (E : t * / t = 1) by (apply Rinv_r; lra). split.
  - replace (- k) with (- k * t * / t) by (rewrite Rmult_assoc, E; ring). apply Rmult_le_compat_r; lra.
  - replace k with (k * t * / t) at 1 by (rewrite Rmult_assoc, E; ring). apply Rmult_le_compat_r; lra.
Qed.

Lemma big_argument : forall x V, 1 <= x -> 0 < V -> V + ln V = x ->
  Rabs (improved (86/100 * x + 1/100) (x - ln (86/100 * x + 1/100) - (86/100 * x + 1/100)) - V) <= 9/100000.
Proof.
  intros x V HX HV EV. set (w := 86/100 * x + 1/100). set (r := x - ln w - w).
  assert (Hw : 87/100 <= w) by (unfold w; lra).
  apply (small_residual x w r); auto; [lra|unfold r; ring|].
  replace (-18/100) with (- (18/100)) by lra. apply ratio_range; [lra|]. unfold r. split.
  - (* tangent of ln at 2.96 *)
    pose proof (ln_below (w * (100/296)) ltac:(lra)) as Q. rewrite ln_mult in Q by lra.
    assert (L : ln (100/296) >= - (116/100)).
    { replace (100/296) with (/ (296/100)) by lra. rewrite ln_Rinv by lra. pose proof exp_116 as E.
      destruct (Rle_dec (ln (296/100)) (116/100)) as [K|K]; [lra|]. exfalso.
      assert (116/100 < ln (296/100)) by lra. apply exp_increasing in H. rewrite exp_ln in H by lra. lra. }
    unfold w in *. lra.
  - pose proof (ln_above w ltac:(lra)) as Q. assert (/ w <= 100/87) by (replace (100/87) with (/ (87/100)) by lra; apply Rinv_le_contravar; lra).
    unfold w in *. lra.
Qed.

Lemma exp_m153 : 212/1000 <= exp (- (153/100)).
Proof.
  apply (exp_half _ (4642630/10000000)); try lra. apply (exp_half _ (6813685/10000000)); try lra. apply (exp_half _ (8254505/10000000)); try lra. apply (exp_half _ (9085431/10000000)); try lra. apply (exp_half _ (9531753/10000000)); try lra. apply (exp_half _ (9763070/10000000)); try lra. apply (exp_half _ (9880825/10000000)); try lra. apply (exp_half _ (9940234/10000000)); try lra.
  apply exp_start. lra.
Qed.
Lemma ln_472 : 153/100 <= ln (472/100).
Proof.
  pose proof exp_m153 as L. rewrite exp_Ropp in L. pose proof (exp_pos (153/100)) as P.
  assert (E : exp (153/100) <= 472/100).
  { assert (Q : exp (153/100) * / exp (153/100) = 1) by (apply Rinv_r; lra). nra. }
  destruct (Rle_dec (153/100) (ln (472/100))) as [K|K]; auto. exfalso.
  assert (ln (472/100) < 153/100) by lra. apply exp_increasing in H. rewrite exp_ln in H by lra. lra.
Qed.

Lemma exp_inv_bound : forall z, z < 1 -> exp z * (1 - z) <= 1.
Proof.
  intros z H. pose proof (exp_ineq1_le (- z)) as Q.
  assert (Z : exp z * exp (- z) = 1) by (rewrite <- exp_plus; replace (z + - z) with 0 by ring; apply exp_0).
  pose proof (exp_pos z). nra.
Qed.

Lemma middle_argument : forall x V, -33/10 <= x < 1 -> 0 < V -> V + ln V = x ->
  Rabs (improved (exp (-65/100 + 8/10 * x)) (2/10 * x + 65/100 - exp (-65/100 + 8/10 * x)) - V) <= 9/100000.
Proof.
  intros x V HX HV EV. set (w := exp (-65/100 + 8/10 * x)). set (r := 2/10 * x + 65/100 - w).
  assert (Hw : 0 < w) by apply exp_pos.
  assert (Lw : ln w = -65/100 + 8/10 * x) by apply ln_exp.
  apply (small_residual x w r); auto; [unfold r; lra|].
  replace (-18/100) with (- (18/100)) by lra. apply ratio_range; [lra|]. unfold r. split.
  - destruct (Rle_dec (-3) x) as [K|K].
    + pose proof (exp_inv_bound (-65/100 + 8/10 * x) ltac:(lra)) as Q. fold w in Q. nra.
    + assert (w <= 1/18); [|lra].
      assert (W : w <= exp (- (3))).
      { left. apply exp_increasing. lra. }
      rewrite exp_Ropp in W. pose proof exp_3. assert (/ exp 3 <= / 18) by (apply Rinv_le_contravar; lra). lra.
  - pose proof (ln_below (w * (472/100)) ltac:(lra)) as Q. rewrite ln_mult in Q by lra. pose proof ln_472. lra.
Qed.

Lemma small_argument : forall x V, x <= -33/10 -> 0 < V -> V + ln V = x ->
  Rabs (improved (exp (-65/100 + 8/10 * x)) (2/10 * x + 65/100 - exp (-65/100 + 8/10 * x)) - V) <= 9/100000.
Proof.
  intros x V HX HV EV. set (w := exp (-65/100 + 8/10 * x)). set (r := 2/10 * x + 65/100 - w).
  assert (Hw : 0 < w) by apply exp_pos.
  assert (Lw : ln w = -65/100 + 8/10 * x) by apply ln_exp.
  assert (W1 : w <= 1/22).
  { assert (W : w <= exp (- (329/100))).
    { assert (HL : -65/100 + 8/10 * x <= - (329/100)) by lra. unfold w. destruct HL as [HL|HL]; [left; now apply exp_increasing|rewrite HL; lra]. }
    rewrite exp_Ropp in W. pose proof exp_329. assert (/ exp (329/100) <= / 22) by (apply Rinv_le_contravar; lra). lra. }
  assert (Hr : r <= 0) by (unfold r; lra).
  assert (I : 0 < / (1 + w)) by (apply Rinv_0_lt_compat; lra).
  assert (IE : / (1 + w) * (1 + w) = 1) by (apply Rinv_l; lra).
  assert (S : 2/3 <= / (1 + w)) by nra.
  assert (E0 : r / (1 + w) <= 0) by (unfold Rdiv; nra).
  assert (E1 : r <= r / (1 + w)).
  { unfold Rdiv. assert (/ (1 + w) <= 1) by nra. nra. }
  pose proof (large_residual x w r Hw ltac:(unfold r; lra) V HV EV E0 S) as Q. 
  eapply Rle_trans; [exact Q|]. clear Q. set (e := r / (1 + w)) in *.
  (* w <= exp (-3) * exp (4 e) *)
  assert (W2 : w <= 1/18 * exp (4 * e)).
  { assert (LW : ln w <= - (3) + 4 * e) by (unfold r in E1; lra).
    assert (W : w <= exp (- (3) + 4 * e)).
    { rewrite <- (exp_ln w) by auto. destruct LW as [LW|LW]; [left; now apply exp_increasing|rewrite LW; lra]. }
    rewrite exp_plus in W. pose proof (exp_pos (4 * e)) as P. rewrite exp_Ropp in W. pose proof exp_3.
    assert (/ exp 3 <= / 18) by (apply Rinv_le_contravar; lra). nra. }
  set (y := - e). assert (Y : 0 <= y) by (unfold y; lra).
  replace (e * e) with (y * y) by (unfold y; ring). replace (4 * e) with (- (4 * y)) in W2 by (unfold y; ring).
  pose proof (xexp y) as X1. pose proof (xexp (4 * y)) as X4.
  pose proof (exp_pos (- y)) as P1. pose proof (exp_pos (- (4 * y))) as P4.
  assert (F4 : exp (- (4 * y)) = exp (- y) * exp (- y) * (exp (- y) * exp (- y))).
  { rewrite <- !exp_plus. f_equal. ring. }
  (* w y *)
  assert (A1 : 0 <= w * y <= 1/18 * (1/4 * (10/26))).
  { split; [nra|]. assert (w * y <= 1/18 * exp (- (4 * y)) * y) by (apply Rmult_le_compat_r; lra). lra. }
  assert (A2 : 0 <= w * (y * y * (y * y)) <= 1/18 * (10/26 * (10/26) * (10/26 * (10/26)))).
  { assert (0 <= y * y) by nra. assert (0 <= y * y * (y * y)) by nra. split; [nra|].
    assert (B : w * (y * y * (y * y)) <= 1/18 * exp (- (4 * y)) * (y * y * (y * y))) by (apply Rmult_le_compat_r; lra).
    rewrite F4 in B. set (z := y * exp (- y)) in *.
    replace (1/18 * (exp (- y) * exp (- y) * (exp (- y) * exp (- y))) * (y * y * (y * y))) with (1/18 * (z * z * (z * z))) in B by (unfold z; ring).
    assert (0 <= z) by (unfold z; nra). assert (z * z <= 10/26 * (10/26)) by nra. assert (0 <= z * z) by nra.
    assert (z * z * (z * z) <= 10/26 * (10/26) * (10/26 * (10/26))) by nra. lra. }
  replace (w * (3/2 * w * (y * y) + y * y * (y * y) / 72)) with (3/2 * (w * y * (w * y)) + w * (y * y * (y * y)) / 72) by field.
  set (p := w * y) in *. set (q := w * (y * y * (y * y))) in *. assert (p * p <= 1/18 * (1/4 * (10/26)) * (1/18 * (1/4 * (10/26)))) by nra. lra.
Qed.
