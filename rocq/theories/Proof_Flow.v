(** The updates of the loss functions follow the gradient flow (C64). *)
From Coq Require Import Reals Lra Psatz.
From Verif Require Import Base FloatOps FloatR Model_Loss Spec_Loss Spec_Flow Proof_Loss Proof_Lambert.
Open Scope R_scope.

(** ** the approximation *)
Definition wx (x : R) : R := wexpmx (O:=RF) RF (fun y => y) (fun y => y) x.

Lemma wx_form : forall x, wx x =
  (if Rle_dec 1 x then improved (86/100 * x + 1/100) (x - ln (86/100 * x + 1/100) - (86/100 * x + 1/100))
   else improved (exp (-65/100 + 8/10 * x)) (2/10 * x + 65/100 - exp (-65/100 + 8/10 * x))) - x.
Proof.
  intros x. unfold wx, wexpmx. rewrite !RF_fl, !RF_f1.
  cbn [f_add f_sub f_mul f_div f_neg f_exp f_ln f_eqb f_ltb f_leb f_lit RF F]. unfold Rleb.
  destruct (Rle_dec 1 x); unfold improved; [reflexivity|].
  replace (- (65 / 100) + 8 / 10 * x) with (-65/100 + 8/10 * x) by lra. reflexivity.
Qed.

Lemma lambert_ln : forall x v, lambertW (exp x) v -> v + ln v = x.
Proof.
  intros x v (H & E). rewrite <- (ln_exp x), <- E, ln_mult by (auto using exp_pos). rewrite ln_exp. ring.
Qed.
Lemma wx_error : forall x v, lambertW (exp x) v -> Rabs (wx x - (v - x)) <= 9/100000.
Proof.
  intros x v L. pose proof (lambert_ln x v L) as E. destruct L as (H & _). rewrite wx_form.
  destruct (Rle_dec 1 x) as [X|X].
  - match goal with |- Rabs (?a - x - (v - x)) <= _ => replace (a - x - (v - x)) with (a - v) by ring end. now apply big_argument.
  - match goal with |- Rabs (?a - x - (v - x)) <= _ => replace (a - x - (v - x)) with (a - v) by ring end.
    destruct (Rle_dec (-33/10) x); [apply middle_argument|apply small_argument]; auto; lra.
Qed.

(** ** the inverse of m + exp m *)
Definition fm (m : R) : R := m + exp m.
Lemma fm_der : forall m, derivable_pt_lim fm m (1 + exp m).
Proof. intros m. unfold fm. apply D_add; [apply D_id|apply derivable_pt_lim_exp]. Qed.
Lemma fm_low : forall a b, a <= b -> b - a <= fm b - fm a.
Proof.
  intros a b H. unfold fm. assert (exp a <= exp b) by (destruct H as [H|H]; [left; now apply exp_increasing|subst; lra]). lra.
Qed.
Lemma fm_inj : forall a b, fm a = fm b -> a = b.
Proof. intros a b E. destruct (Rle_dec a b); [pose proof (fm_low a b)|pose proof (fm_low b a)]; lra. Qed.
Lemma fm_inv : forall x, { m | fm m = x }.
Proof.
  intros x. destruct (IVT (fun m => fm m - x) (- Rabs x - 1) (Rabs x)) as (m & _ & E).
  - intros m. apply derivable_continuous_pt. exists (1 + exp m - 0). apply D_sub; [apply fm_der|apply D_const].
  - pose proof (Rabs_pos x). lra.
  - unfold fm. assert (E : exp (- Rabs x - 1) < 1) by (pose proof (exp_increasing (- Rabs x - 1) 0 ltac:(pose proof (Rabs_pos x); lra)) as K; rewrite exp_0 in K; exact K).
    pose proof (Rle_abs (- x)) as Q. rewrite Rabs_Ropp in Q. lra.
  - unfold fm. pose proof (exp_pos (Rabs x)). pose proof (Rle_abs x). lra.
  - exists m. lra.
Qed.
Definition im (x : R) : R := proj1_sig (fm_inv x).
Lemma fm_im : forall x, fm (im x) = x.
Proof. intros x. exact (proj2_sig (fm_inv x)). Qed.
Lemma im_fm : forall m, im (fm m) = m.
Proof. intros m. apply fm_inj, fm_im. Qed.
Lemma im_lip : forall x k, Rabs (im (x + k) - im x) <= Rabs k.
Proof.
  intros x k. pose proof (fm_im x) as E1. pose proof (fm_im (x + k)) as E2.
  destruct (Rle_dec (im x) (im (x + k))) as [L|L].
  - pose proof (fm_low _ _ L). rewrite !Rabs_right; lra.
  - pose proof (fm_low (im (x + k)) (im x) ltac:(lra)). rewrite !Rabs_left1; lra.
Qed.
Definition sg (m : R) : R := / (1 + exp m).
Lemma sg_pos : forall m, 0 < sg m < 1.
Proof.
  intros m. unfold sg. pose proof (exp_pos m). split; [apply Rinv_0_lt_compat; lra|].
  rewrite <- Rinv_1. apply Rinv_lt_contravar; lra.
Qed.
Lemma sg_der : forall m, derivable_pt_lim sg m (- (sg m * (1 - sg m))).
Proof.
  intros m. pose proof (exp_pos m).
  assert (D : derivable_pt_lim (fun m => 1 / (1 + exp m)) m (- (sg m * (1 - sg m)))).
  { eapply D_eq; [apply D_div; [apply D_const|apply D_add; [apply D_const|apply derivable_pt_lim_exp]|lra]|].
    unfold sg, Rsqr. field. lra. }
  intros eps He. destruct (D eps He) as (dd & Q). exists dd. intros h Hh Hd. specialize (Q h Hh Hd).
  unfold sg. replace (/ (1 + exp (m + h))) with (1 / (1 + exp (m + h))) by (unfold Rdiv; ring).
  replace (/ (1 + exp m)) with (1 / (1 + exp m)) at 1 by (unfold Rdiv; ring). exact Q.
Qed.
Lemma sg_lip : forall a b, Rabs (sg a - sg b) <= Rabs (a - b).
Proof.
  assert (H : forall a b, a <= b -> 0 <= sg a - sg b <= b - a).
  { intros a b L. split.
    - pose proof (falls sg _ a b L (fun c _ => sg_der c) (fun c _ => ltac:(pose proof (sg_pos c); nra))). lra.
    - assert (D : forall c, derivable_pt_lim (fun c => sg c + c) c (- (sg c * (1 - sg c)) + 1)) by (intros c; apply D_add; [apply sg_der|apply D_id]).
      pose proof (rises _ _ a b L (fun c _ => D c) (fun c _ => ltac:(pose proof (sg_pos c); nra))) as Q. cbv beta in Q. lra. }
  intros a b. destruct (Rle_dec a b) as [L|L].
  - pose proof (H a b L). rewrite (Rabs_right (sg a - sg b)), (Rabs_left1 (a - b)); lra.
  - pose proof (H b a ltac:(lra)). rewrite (Rabs_left1 (sg a - sg b)), (Rabs_right (a - b)); lra.
Qed.
Lemma im_der : forall x, derivable_pt_lim im x (sg (im x)).
Proof.
  intros x eps He. exists (mkposreal eps He). intros h Hh Hlt. cbn [pos] in Hlt.
  pose proof (fm_im x) as E1. pose proof (fm_im (x + h)) as E2. pose proof (im_lip x h) as L.
  set (a := im x) in *. set (b := im (x + h)) in *.
  assert (N : a <> b) by (intros Q; rewrite Q in E1; lra).
  assert (M : exists c, b - a = h * sg c /\ Rabs (c - a) <= Rabs (b - a)).
  { assert (G : forall u v, u < v -> exists c, v - u = (fm v - fm u) * sg c /\ u < c < v).
    { intros u v L'. destruct (MVT_cor2 fm (fun m => 1 + exp m) u v L' (fun c _ => fm_der c)) as (c & Q & I).
      exists c. split; auto. rewrite Q. unfold sg. field. pose proof (exp_pos c). lra. }
    destruct (Rlt_dec a b) as [K|K].
    - destruct (G a b K) as (c & Q & I). exists c. split; [rewrite Q, E1, E2; ring|]. rewrite !Rabs_right; lra.
    - destruct (G b a ltac:(lra)) as (c & Q & I). exists c. split.
      + replace (b - a) with (- (a - b)) by ring. rewrite Q, E1, E2. ring.
      + rewrite !Rabs_left1; lra. }
  destruct M as (c & Q & I). replace ((b - a) / h) with (sg c) by (rewrite Q; field; auto).
  pose proof (sg_lip c a). lra.
Qed.

(** ** logistic loss *)
Definition softplus (l q : R) : R := ln (1 + exp (- (l * q))).
Lemma softplus_der : forall l q, derivable_pt_lim (softplus l) q (- l * sg (l * q)).
Proof.
  intros l q. unfold softplus. pose proof (exp_pos (- (l * q))) as P. eapply D_eq.
  - apply D_ln; [apply D_add; [apply D_const|apply D_exp, D_opp, D_mul; [apply D_const|apply D_id]]|lra].
  - cbv beta. unfold sg. rewrite exp_Ropp in *. pose proof (exp_pos (l * q)). field. split; lra.
Qed.

Lemma flow_logistic : forall l y0 h y1, l * l = 1 -> 0 <= h -> gradient_flow (softplus l) y0 h y1 ->
  fm (l * y1) = fm (l * y0) + h /\ Rabs (l * y1 - l * y0 - h * sg (l * y0)) <= h.
Proof.
  intros l y0 h y1 L H (y & E0 & E1 & F).
  assert (D : forall t, 0 <= t <= h -> derivable_pt_lim (fun t => l * y t) t (sg (l * y t))).
  { intros t Ht. destruct (F t Ht) as (d & D1 & D2). pose proof (softplus_der l (y t)) as D3.
    pose proof (uniqueness_limite _ _ _ _ D1 D3) as ->. eapply D_eq; [apply D_mul; [apply D_const|exact D2]|].
    transitivity (l * l * sg (l * y t)); [ring|]. rewrite L. ring. }
  assert (DF : forall t, 0 <= t <= h -> derivable_pt_lim (fun t => fm (l * y t) - t) t 0).
  { intros t Ht. eapply D_eq; [apply D_sub; [|apply D_id]|].
    - exact (derivable_pt_lim_comp (fun t => l * y t) fm t _ _ (D t Ht) (fm_der (l * y t))).
    - unfold sg. pose proof (exp_pos (l * y t)). field. lra. }
  split.
  - pose proof (falls _ _ 0 h H DF (fun _ _ => ltac:(lra))) as Q1. pose proof (rises _ _ 0 h H DF (fun _ _ => ltac:(lra))) as Q2.
    cbv beta in Q1, Q2. rewrite E0, E1 in *. lra.
  - destruct H as [H|H].
    + destruct (MVT_cor2 _ _ 0 h H D) as (c & Q & _). cbv beta in Q. rewrite E0, E1 in Q. rewrite Rminus_0_r in Q.
      rewrite Q. pose proof (sg_pos (l * y c)). pose proof (sg_pos (l * y0)).
      replace (sg (l * y c) * h - h * sg (l * y0)) with (h * (sg (l * y c) - sg (l * y0))) by ring.
      rewrite Rabs_mult, (Rabs_right h) by lra. assert (Rabs (sg (l * y c) - sg (l * y0)) <= 1) by (apply Rabs_le; lra). nra.
    + assert (Q : y1 = y0) by (rewrite <- E0, <- E1, H; reflexivity). rewrite Q, <- H.
      replace (l * y0 - l * y0 - 0 * sg (l * y0)) with 0 by ring. rewrite Rabs_R0. lra.
Qed.

Lemma flow_logistic_exists : forall l y0 h, l * l = 1 -> gradient_flow (softplus l) y0 h (l * im (fm (l * y0) + h)).
Proof.
  intros l y0 h L. exists (fun t => l * im (fm (l * y0) + t)). split.
  - rewrite Rplus_0_r, im_fm. rewrite <- Rmult_assoc, L. ring.
  - split; auto. intros t _. eexists. split; [apply softplus_der|].
    replace (l * (l * im (fm (l * y0) + t))) with (im (fm (l * y0) + t)) by (rewrite <- Rmult_assoc, L; ring).
    eapply D_eq; [apply D_mul; [apply D_const|]|].
    + exact (derivable_pt_lim_comp (fun t => fm (l * y0) + t) im t 1 _
        (D_eq _ _ _ _ (D_add _ _ _ _ _ (D_const _ t) (D_id t)) (Rplus_0_l 1)) (im_der _)).
    + cbv beta. ring.
Qed.

Lemma update_sub_flow : forall l p sc ppu y1, l * l = 1 -> 0 <= sc -> 0 < ppu ->
  gradient_flow (softplus l) p (sc * ppu) y1 ->
  Rabs (p + ppu * lg_update_sub (O:=RF) RF (fun y => y) (fun y => y) p l sc ppu - y1) <= 9/100000.
Proof.
  intros l p sc ppu y1 L Hs Hp GF. assert (Hh : 0 <= sc * ppu) by nra.
  destruct (flow_logistic _ _ _ _ L Hh GF) as (E & B).
  assert (AL : forall z, Rabs (l * z) = Rabs z).
  { intros z. rewrite Rabs_mult. assert (Rabs l = 1); [|rewrite H; ring].
    assert (Q : Rabs l * Rabs l = 1) by (rewrite <- Rabs_mult, L; apply Rabs_R1). pose proof (Rabs_pos l). nra. }
  rewrite <- AL. unfold lg_update_sub. rewrite RF_f1.
  cbn [f_add f_sub f_mul f_div f_neg f_exp f_ln f_eqb f_ltb f_leb f_lit RF F]. unfold Rltb.
  destruct (Rlt_dec (sc * ppu) (1 / 1000000)) as [K|K].
  - replace (l * (p + ppu * (l * sc / (1 + exp (l * p))) - y1)) with (- (l * y1 - l * p - sc * ppu * sg (l * p))).
    + rewrite Rabs_Ropp. lra.
    + unfold sg. replace (- (l * y1 - l * p - sc * ppu * / (1 + exp (l * p)))) with
        (l * p + 1 * (sc * ppu / (1 + exp (l * p))) - l * y1) by (unfold Rdiv; ring). rewrite <- L.
      pose proof (exp_pos (l * p)). field. lra.
  - set (x := sc * ppu + l * p + exp (l * p)).
    change (Rabs (l * (p + ppu * (- (l * wx x + p) / ppu) - y1)) <= 9/100000).
    assert (X : fm (l * y1) = x) by (unfold x; rewrite E; unfold fm; ring).
    assert (W : lambertW (exp x) (exp (l * y1))).
    { split; [apply exp_pos|]. rewrite <- X. unfold fm. symmetry. apply exp_plus. }
    pose proof (wx_error x _ W) as Q.
    replace (l * (p + ppu * (- (l * wx x + p) / ppu) - y1)) with (- (wx x - (exp (l * y1) - x))).
    + now rewrite Rabs_Ropp.
    + rewrite <- X at 2. unfold fm. replace (l * (p + ppu * (- (l * wx x + p) / ppu) - y1)) with (- ((l * l) * wx x) - l * y1) by (field; lra).
      rewrite L. ring.
Qed.

(** the loss at the two ends of the label range *)
Lemma loss_ends : forall dbg mn mx a b q, mn < mx ->
  loss_get (O:=RF) dbg (LossLogistic mn mx) a b q mx = Ok (softplus 1 q) /\
  loss_get (O:=RF) dbg (LossLogistic mn mx) a b q mn = Ok (softplus (-1) q).
Proof.
  intros dbg mn mx a b q H. unfold loss_get, lg_loss, lg_mix, std_label, lg_loss_sub, fm1. rewrite !RF_f1.
  cbn [f_add f_sub f_mul f_div f_neg f_exp f_ln f_eqb f_ltb f_leb f_lit RF F]. unfold Rleb.
  destruct (Rle_dec mn mx); [|lra]. destruct (Rle_dec mx mx); [|lra]. destruct (Rle_dec mn mn); [|lra].
  cbn [andb negb]. rewrite Bool.andb_false_r. unfold softplus. split; f_equal.
  - replace ((mx - mn) / (mx - mn)) with 1 by (field; lra). replace (- (1) * q) with (- (1 * q)) by ring. ring.
  - replace ((mn - mn) / (mx - mn)) with 0 by (field; lra). replace (- - (1) * q) with (- (-1 * q)) by ring. ring.
Qed.

Definition lgu (mn mx p l sc ppu : R) : R := lg_update (O:=RF) RF (fun y => y) (fun y => y) mn mx p l sc ppu.
Lemma lgu_ends : forall mn mx p sc ppu, mn < mx ->
  lgu mn mx p mx sc ppu = lg_update_sub (O:=RF) RF (fun y => y) (fun y => y) p 1 sc ppu /\
  lgu mn mx p mn sc ppu = lg_update_sub (O:=RF) RF (fun y => y) (fun y => y) p (-1) sc ppu.
Proof.
  intros mn mx p sc ppu H. unfold lgu, lg_update, lg_mix, std_label, fm1. rewrite !RF_f1.
  cbn [f_add f_sub f_mul f_div f_neg RF F]. split.
  - replace ((mx - mn) / (mx - mn)) with 1 by (field; lra).
    now rewrite Rmult_1_l, Rminus_eq_0, Rmult_0_l, Rplus_0_r.
  - replace ((mn - mn) / (mx - mn)) with 0 by (field; lra). replace (- (1)) with (-1) by lra.
    now rewrite Rmult_0_l, Rminus_0_r, Rmult_1_l, Rplus_0_l.
Qed.

Lemma flow_ext : forall f g y0 h y1, (forall q, f q = g q) -> gradient_flow f y0 h y1 -> gradient_flow g y0 h y1.
Proof.
  intros f g y0 h y1 E (y & A & B & F). exists y. split; auto. split; auto. intros t Ht. destruct (F t Ht) as (d & D1 & D2).
  exists d. split; auto. intros eps He. destruct (D1 eps He) as (dd & Q). exists dd. intros k Hk Hd. rewrite <- !E. auto.
Qed.

Lemma end_sign : forall mn mx l dbg a b (f : R -> R), mn < mx -> l = mn \/ l = mx ->
  (forall q, loss_get (O:=RF) dbg (LossLogistic mn mx) a b q l = Ok (f q)) ->
  exists sgn, sgn * sgn = 1 /\ (forall q, f q = softplus sgn q) /\
    forall p sc ppu, lgu mn mx p l sc ppu = lg_update_sub (O:=RF) RF (fun y => y) (fun y => y) p sgn sc ppu.
Proof.
  intros mn mx l dbg a b f H [-> | ->] E.
  - exists (-1). split; [ring|]. split; [|intros; now apply lgu_ends]. intros q. specialize (E q).
    rewrite (proj2 (loss_ends dbg mn mx a b q H)) in E. now inversion E.
  - exists 1. split; [ring|]. split; [|intros; now apply lgu_ends]. intros q. specialize (E q).
    rewrite (proj1 (loss_ends dbg mn mx a b q H)) in E. now inversion E.
Qed.

Lemma logistic_flow : forall mn mx l dbg a b (f : R -> R) p sc ppu y1, mn < mx -> l = mn \/ l = mx ->
  (forall q, loss_get (O:=RF) dbg (LossLogistic mn mx) a b q l = Ok (f q)) ->
  0 <= sc -> 0 < ppu -> gradient_flow f p (sc * ppu) y1 ->
  Rabs (p + ppu * lgu mn mx p l sc ppu - y1) <= 9/100000.
Proof.
  intros mn mx l dbg a b f p sc ppu y1 H HL E Hs Hp F.
  destruct (end_sign mn mx l dbg a b f H HL E) as (sgn & L & Ef & EU). rewrite EU.
  apply update_sub_flow; auto. eapply flow_ext; [exact Ef|exact F].
Qed.

Lemma logistic_flow_exists : forall mn mx l dbg a b p h, mn < mx -> l = mn \/ l = mx ->
  exists (f : R -> R) y1, (forall q, loss_get (O:=RF) dbg (LossLogistic mn mx) a b q l = Ok (f q)) /\ gradient_flow f p h y1.
Proof.
  intros mn mx l dbg a b p h H [-> | ->].
  - exists (softplus (-1)), (-1 * im (fm (-1 * p) + h)). split; [intros; now apply loss_ends|apply flow_logistic_exists; ring].
  - exists (softplus 1), (1 * im (fm (1 * p) + h)). split; [intros; now apply loss_ends|apply flow_logistic_exists; ring].
Qed.

(** a label in between gives the mixture of the two ends, so the update is between them *)
Lemma logistic_mix : forall mn mx l p sc ppu, mn < mx -> mn <= l <= mx ->
  lgu mn mx p l sc ppu = (l - mn) / (mx - mn) * lgu mn mx p mx sc ppu + (mx - l) / (mx - mn) * lgu mn mx p mn sc ppu.
Proof.
  intros mn mx l p sc ppu H HL. rewrite (proj1 (lgu_ends mn mx p sc ppu H)), (proj2 (lgu_ends mn mx p sc ppu H)).
  unfold lgu, lg_update, lg_mix, std_label, fm1. rewrite !RF_f1.
  cbn [f_add f_sub f_mul f_div f_neg RF F]. replace (- (1)) with (-1) by lra. field. lra.
Qed.

(** ** squared loss *)
Lemma sq_flow_form : forall l p h y1, 0 <= h -> gradient_flow (fun q => (q - l) * (q - l)) p h y1 ->
  y1 = l + (p - l) * exp (-2 * h).
Proof.
  intros l p h y1 H (y & E0 & E1 & F).
  assert (D : forall t, 0 <= t <= h -> derivable_pt_lim (fun t => (y t - l) * exp (2 * t)) t 0).
  { intros t Ht. destruct (F t Ht) as (d & D1 & D2). pose proof (der_quad l (y t)) as D3.
    pose proof (uniqueness_limite _ _ _ _ D1 D3) as ->.
    eapply D_eq; [apply D_mul; [apply D_sub; [exact D2|apply D_const]|apply D_exp, D_mul; [apply D_const|apply D_id]]|]. cbv beta. ring. }
  pose proof (falls _ _ 0 h H D (fun _ _ => ltac:(lra))) as Q1. pose proof (rises _ _ 0 h H D (fun _ _ => ltac:(lra))) as Q2.
  cbv beta in Q1, Q2. rewrite E0, E1, Rmult_0_r, exp_0 in *. assert (Q : (y1 - l) * exp (2 * h) = p - l) by lra.
  rewrite <- Q. replace (-2 * h) with (- (2 * h)) by ring. rewrite exp_Ropp. field. pose proof (exp_pos (2 * h)). lra.
Qed.
Lemma sq_flow_exists : forall l p h, gradient_flow (fun q => (q - l) * (q - l)) p h (l + (p - l) * exp (-2 * h)).
Proof.
  intros l p h. exists (fun t => l + (p - l) * exp (-2 * t)). split; [rewrite Rmult_0_r, exp_0; ring|]. split; auto.
  intros t _. eexists. split; [apply der_quad|].
  eapply D_eq; [apply D_add; [apply D_const|apply D_mul; [apply D_const|apply D_exp, D_mul; [apply D_const|apply D_id]]]|]. cbv beta. ring.
Qed.

Lemma squared_flow : forall l p sc ppu y1, 0 <= sc -> 0 < ppu ->
  gradient_flow (fun q => (q - l) * (q - l)) p (sc * ppu) y1 ->
  (1/1000000 <= sc * ppu -> p + ppu * sq_update (O:=RF) p l sc ppu = y1) /\
  Rabs (p + ppu * sq_update (O:=RF) p l sc ppu - y1) <= 2 / 1000000000000 * Rabs (l - p).
Proof.
  intros l p sc ppu y1 Hs Hp GF. assert (Hh : 0 <= sc * ppu) by nra. rewrite (sq_flow_form _ _ _ _ Hh GF).
  unfold sq_update. rewrite !RF_fl, !RF_f1.
  cbn [f_add f_sub f_mul f_div f_neg f_exp f_ln f_eqb f_ltb f_leb f_lit RF F]. unfold Rltb.
  destruct (Rlt_dec (sc * ppu) (1 / 1000000)) as [K|K].
  - split; [lra|]. set (h := sc * ppu) in *.
    replace (p + ppu * (2 * (l - p) * sc) - (l + (p - l) * exp (-2 * h))) with ((l - p) * (exp (-2 * h) - 1 - (-2 * h))) by (unfold h; ring).
    rewrite Rabs_mult, Rmult_comm. apply Rmult_le_compat_r; [apply Rabs_pos|].
    pose proof (exp_ineq1_le (-2 * h)). pose proof (exp_neg_quad (-2 * h) ltac:(lra)).
    rewrite Rabs_right by lra. nra.
  - replace (p + ppu * ((l - p) * (1 - exp (- (2) * sc * ppu)) / ppu)) with (l + (p - l) * exp (-2 * (sc * ppu))).
    + split; auto. rewrite Rminus_diag_eq by reflexivity. rewrite Rabs_R0. pose proof (Rabs_pos (l - p)). nra.
    + replace (- (2) * sc * ppu) with (-2 * (sc * ppu)) by ring. field. lra.
Qed.

Lemma squared_no_overshoot : forall l p sc ppu, 0 <= sc -> 0 < ppu ->
  exists th, 0 <= th <= 1 /\ p + ppu * sq_update (O:=RF) p l sc ppu = p + th * (l - p).
Proof.
  intros l p sc ppu Hs Hp. assert (Hh : 0 <= sc * ppu) by nra. unfold sq_update. rewrite !RF_fl, !RF_f1.
  cbn [f_add f_sub f_mul f_div f_neg f_exp f_ln f_eqb f_ltb f_leb f_lit RF F]. unfold Rltb.
  destruct (Rlt_dec (sc * ppu) (1 / 1000000)) as [K|K].
  - exists (2 * (sc * ppu)). split; [lra|ring].
  - exists (1 - exp (- (2) * sc * ppu)). split; [|field; lra].
    pose proof (exp_pos (- (2) * sc * ppu)). assert (exp (- (2) * sc * ppu) <= 1); [|lra].
    destruct Hh as [Hh|Hh].
    + pose proof (exp_increasing (- (2) * sc * ppu) 0 ltac:(nra)) as Q. rewrite exp_0 in Q. lra.
    + replace (- (2) * sc * ppu) with (- 2 * (sc * ppu)) by ring. rewrite <- Hh, Rmult_0_r, exp_0. lra.
Qed.

(** A label in between: the update is the mixture of the two flows. *)
Lemma logistic_between : forall mn mx l dbg a b (f0 f1 : R -> R) p sc ppu y0 y1, mn < mx ->
  mn <= l <= mx ->
  (forall q, loss_get (O:=RF) dbg (LossLogistic mn mx) a b q mn = Ok (f0 q)) ->
  (forall q, loss_get (O:=RF) dbg (LossLogistic mn mx) a b q mx = Ok (f1 q)) ->
  0 <= sc -> 0 < ppu -> gradient_flow f0 p (sc * ppu) y0 -> gradient_flow f1 p (sc * ppu) y1 ->
  Rabs (p + ppu * lgu mn mx p l sc ppu - ((l - mn) / (mx - mn) * y1 + (mx - l) / (mx - mn) * y0)) <= 9/100000.
Proof.
  intros mn mx l dbg a b f0 f1 p sc ppu y0 y1 H HL E0 E1 Hs Hp G0 G1.
  pose proof (logistic_flow mn mx mn dbg a b f0 p sc ppu y0 H (or_introl eq_refl) E0 Hs Hp G0) as B0.
  pose proof (logistic_flow mn mx mx dbg a b f1 p sc ppu y1 H (or_intror eq_refl) E1 Hs Hp G1) as B1.
  rewrite (logistic_mix mn mx l p sc ppu H HL).
  set (u1 := lgu mn mx p mx sc ppu) in *. set (u0 := lgu mn mx p mn sc ppu) in *.
  set (w := (l - mn) / (mx - mn)). assert (W : (mx - l) / (mx - mn) = 1 - w) by (unfold w; field; lra). rewrite W.
  assert (0 <= w) by (apply Rmult_le_pos; [lra|left; apply Rinv_0_lt_compat; lra]).
  assert (0 <= 1 - w) by (rewrite <- W; apply Rmult_le_pos; [lra|left; apply Rinv_0_lt_compat; lra]).
  replace (p + ppu * (w * u1 + (1 - w) * u0) - (w * y1 + (1 - w) * y0)) with
    (w * (p + ppu * u1 - y1) + (1 - w) * (p + ppu * u0 - y0)) by ring.
  eapply Rle_trans; [apply Rabs_triang|]. rewrite !Rabs_mult, (Rabs_right w), (Rabs_right (1 - w)) by lra. nra.
Qed.

Lemma overshoot : forall mn mx l p ppu B, mn < mx -> (mn + mx) / 2 < l <= mx -> 0 < ppu ->
  exists sc, 0 <= sc /\ B <= p + ppu * lgu mn mx p l sc ppu.
Proof.
  intros mn mx l p ppu B H HL Hp.
  set (w := (l - mn) / (mx - mn)). assert (W : (mx - l) / (mx - mn) = 1 - w) by (unfold w; field; lra).
  assert (W1 : / 2 < w).
  { unfold w. apply Rmult_lt_reg_r with (mx - mn); [lra|]. replace ((l - mn) / (mx - mn) * (mx - mn)) with (l - mn) by (field; lra). lra. }
  assert (W2 : 0 <= 1 - w) by (rewrite <- W; apply Rmult_le_pos; [lra|left; apply Rinv_0_lt_compat; lra]).
  set (c1 := fm (1 * p)). set (c2 := fm (-1 * p)).
  set (M0 := (B + 1 + Rabs (c1 - c2)) / (2 * w - 1)). set (M := Rmax (1 * p) M0).
  assert (M1 : 1 * p <= M) by apply Rmax_l. assert (M2 : M0 <= M) by apply Rmax_r.
  assert (Hh : 0 <= fm M - c1) by (pose proof (fm_low _ _ M1); unfold c1; lra).
  exists ((fm M - c1) / ppu). assert (S0 : 0 <= (fm M - c1) / ppu) by (apply Rmult_le_pos; [lra|left; now apply Rinv_0_lt_compat]).
  split; auto. assert (SP : (fm M - c1) / ppu * ppu = fm M - c1) by (field; lra).
  pose proof (flow_logistic_exists 1 p ((fm M - c1) / ppu * ppu) ltac:(ring)) as G1.
  pose proof (flow_logistic_exists (-1) p ((fm M - c1) / ppu * ppu) ltac:(ring)) as G0.
  pose proof (logistic_between mn mx l false mn mx _ _ p _ ppu _ _ H ltac:(lra)
    (fun q => proj2 (loss_ends false mn mx mn mx q H)) (fun q => proj1 (loss_ends false mn mx mn mx q H)) S0 Hp G0 G1) as Q.
  fold w in Q. rewrite W, SP in Q. fold c1 c2 in Q.
  replace (c1 + (fm M - c1)) with (fm M) in Q by ring. rewrite im_fm in Q.
  replace (c2 + (fm M - c1)) with (fm M + (c2 - c1)) in Q by ring.
  pose proof (im_lip (fm M) (c2 - c1)) as L. rewrite im_fm in L.
  set (z := im (fm M + (c2 - c1))) in *.
  assert (Z : z <= M + Rabs (c2 - c1)) by (pose proof (Rle_abs (z - M)); lra).
  assert (MM : B + 1 + Rabs (c2 - c1) <= (2 * w - 1) * M).
  { replace (B + 1 + Rabs (c2 - c1)) with ((2 * w - 1) * M0); [nra|]. unfold M0. rewrite (Rabs_minus_sym c1 c2). field. lra. }
  set (u := p + ppu * lgu mn mx p l ((fm M - c1) / ppu) ppu) in *.
  assert (Q' : w * (1 * M) + (1 - w) * (-1 * z) - u <= 9/100000).
  { rewrite Rabs_minus_sym in Q. eapply Rle_trans; [apply Rle_abs|exact Q]. }
  pose proof (Rabs_pos (c2 - c1)). nra.
Qed.

Lemma increases : exists mn mx l p sc ppu v0 v1 : R, mn < l < mx /\ 0 <= sc /\ 0 < ppu /\
  loss_get (O:=RF) true (LossLogistic mn mx) mn mx p l = Ok v0 /\
  loss_get (O:=RF) true (LossLogistic mn mx) mn mx (p + ppu * lgu mn mx p l sc ppu) l = Ok v1 /\ v0 < v1.
Proof.
  destruct (overshoot 0 1 (3/4) 0 1 4 ltac:(lra) ltac:(lra) ltac:(lra)) as (sc & S0 & B).
  set (u := 0 + 1 * lgu 0 1 0 (3/4) sc 1) in *.
  exists 0, 1, (3/4), 0, sc, 1, (ln 2), (3/4 * softplus 1 u + (1 - 3/4) * softplus (-1) u).
  split; [lra|]. split; auto. split; [lra|].
  assert (E : forall q, loss_get (O:=RF) true (LossLogistic 0 1) 0 1 q (3/4) = Ok (3/4 * softplus 1 q + (1 - 3/4) * softplus (-1) q)).
  { intros q. unfold loss_get, lg_loss, lg_mix, std_label, lg_loss_sub, fm1. rewrite !RF_f1.
    cbn [f_add f_sub f_mul f_div f_neg f_exp f_ln f_eqb f_ltb f_leb f_lit RF F]. unfold Rleb.
    destruct (Rle_dec 0 (3/4)); [|lra]. destruct (Rle_dec (3/4) 1); [|lra]. cbn [andb negb]. f_equal.
    replace ((3/4 - 0) / (1 - 0)) with (3/4) by field. unfold softplus.
    replace (- (1) * q) with (- (1 * q)) by ring. replace (- - (1) * q) with (- (-1 * q)) by ring. reflexivity. }
  split.
  { rewrite E. f_equal. unfold softplus. rewrite !Rmult_0_r, Ropp_0, exp_0. replace (1 + 1) with 2 by ring. field. }
  split; [apply E|].
  assert (P1 : 0 <= softplus 1 u).
  { unfold softplus. rewrite <- ln_1 at 1. pose proof (exp_pos (- (1 * u))). left. apply ln_increasing; lra. }
  assert (P2 : u <= softplus (-1) u).
  { unfold softplus. rewrite <- (ln_exp u) at 1. replace (- (-1 * u)) with u by ring. pose proof (exp_pos u). left. apply ln_increasing; lra. }
  pose proof ln_lt_2. assert (ln 2 < 1).
  { rewrite <- (ln_exp 1). apply ln_increasing; [lra|]. pose proof exp_1. lra. }
  lra.
Qed.

Lemma lambert_exists : forall x, exists v, lambertW (exp x) v.
Proof.
  intros x. exists (exp (im x)). split; [apply exp_pos|]. rewrite <- exp_plus. f_equal. exact (fm_im x).
Qed.
