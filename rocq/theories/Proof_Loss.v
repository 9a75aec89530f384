(** Loss functions in exact arithmetic. *)
From Coq Require Import Reals Lra Bool.
From Verif Require Import Base FloatOps FloatR Model_Loss Spec_Loss.
Open Scope R_scope.

(** ** Differentiating functions given piecewise *)

Lemma glue : forall f g h x d,
  derivable_pt_lim g x d -> derivable_pt_lim h x d ->
  f x = g x -> g x = h x ->
  (exists e, 0 < e /\ forall y, Rabs (y - x) < e -> f y = g y \/ f y = h y) ->
  derivable_pt_lim f x d.
Proof.
  intros f g h x d G H E1 E2 (e & He & P) eps Heps.
  destruct (G eps Heps) as [d1 D1]. destruct (H eps Heps) as [d2 D2].
  assert (M : 0 < Rmin e (Rmin d1 d2)).
  { repeat apply Rmin_glb_lt; auto; apply cond_pos. }
  exists (mkposreal _ M). intros y Hy Hlt. simpl in Hlt.
  assert (A1 : Rabs y < e) by (eapply Rlt_le_trans; [exact Hlt|apply Rmin_l]).
  assert (A2 : Rabs y < d1).
  { eapply Rlt_le_trans; [exact Hlt|]. eapply Rle_trans; [apply Rmin_r|apply Rmin_l]. }
  assert (A3 : Rabs y < d2).
  { eapply Rlt_le_trans; [exact Hlt|]. eapply Rle_trans; [apply Rmin_r|apply Rmin_r]. }
  destruct (P (x + y)) as [Q|Q].
  - replace (x + y - x) with y by ring; auto.
  - rewrite Q, E1. auto.
  - rewrite Q, E1, E2. auto.
Qed.

Lemma near : forall f g x d,
  derivable_pt_lim g x d ->
  (exists e, 0 < e /\ forall y, Rabs (y - x) < e -> f y = g y) ->
  derivable_pt_lim f x d.
Proof.
  intros f g x d G (e & He & P). apply (glue f g g); auto.
  - apply P. rewrite Rminus_diag_eq by reflexivity. now rewrite Rabs_R0.
  - exists e; split; auto.
Qed.

Lemma der_quad : forall l x, derivable_pt_lim (fun p => (p - l) * (p - l)) x (2 * (x - l)).
Proof.
  intros l x eps He. exists (mkposreal eps He). intros h Hh Hlt. simpl in Hlt.
  replace (((x + h - l) * (x + h - l) - (x - l) * (x - l)) / h - 2 * (x - l)) with h
    by (field; auto). exact Hlt.
Qed.
Lemma der_lin : forall a b c x, derivable_pt_lim (fun p => a + b * (p - c)) x b.
Proof.
  intros a b c x eps He. exists (mkposreal 1 Rlt_0_1). intros h Hh _.
  replace ((a + b * (x + h - c) - (a + b * (x - c))) / h - b) with 0 by (field; auto).
  now rewrite Rabs_R0.
Qed.

Ltac rsimp :=
  unfold sq_loss, sq_d1, sq_d2, f_gtb;
  rewrite ?RF_fl, ?RF_f0, ?RF_f1;
  cbn [f_add f_sub f_mul f_div f_neg f_exp f_ln f_eqb f_ltb f_leb RF F].
Ltac rcase :=
  repeat match goal with
         | |- context [Rleb ?a ?b] => destruct (Rleb_spec a b); cbn [andb]
         | |- context [Rltb ?a ?b] => destruct (Rltb_spec a b); cbn [andb]
         | |- context [Reqb ?a ?b] => destruct (Reqb_spec a b); cbn [andb]
         end.

(** ** Squared loss *)

Lemma sq_in : forall mn mx p l, mn <= p <= mx ->
  sq_loss (O:=RF) mn mx p l = (p - l) * (p - l).
Proof. intros. rsimp. rcase; try lra; nra. Qed.
Lemma sq_below : forall mn mx p l, mn <= mx -> p <= mn ->
  sq_loss (O:=RF) mn mx p l = (mn - l) * (mn - l) + 2 * (mn - l) * (p - mn).
Proof. intros. rsimp. rcase; try lra; subst; try nra. Qed.
Lemma sq_above : forall mn mx p l, mn <= mx -> mx <= p ->
  sq_loss (O:=RF) mn mx p l = (mx - l) * (mx - l) + 2 * (mx - l) * (p - mx).
Proof. intros. rsimp. rcase; try lra; subst; try nra. Qed.

Lemma sq_nonneg : forall mn mx p l, mn <= l <= mx -> 0 <= sq_loss (O:=RF) mn mx p l.
Proof.
  intros mn mx p l H. destruct (Rle_dec p mn).
  - rewrite sq_below by lra. pose proof (Rmult_le_pos (l - mn) (mn - p)).
    pose proof (Rle_0_sqr (mn - l)). unfold Rsqr in *. nra.
  - destruct (Rle_dec mx p).
    + rewrite sq_above by lra. pose proof (Rmult_le_pos (mx - l) (p - mx)).
      pose proof (Rle_0_sqr (mx - l)). unfold Rsqr in *. nra.
    + rewrite sq_in by lra. pose proof (Rle_0_sqr (p - l)). unfold Rsqr in *. lra.
Qed.

Lemma sq_der : forall mn mx p l, mn <= mx ->
  derivable_pt_lim (fun q => sq_loss (O:=RF) mn mx q l) p (sq_d1 (O:=RF) mn mx p l).
Proof.
  intros mn mx p l H.
  destruct (Rlt_dec p mn) as [A|A].
  { replace (sq_d1 mn mx p l) with (2 * (mn - l)) by (rsimp; rcase; try lra).
    apply near with (g := fun q => (mn - l) * (mn - l) + 2 * (mn - l) * (q - mn)).
    - apply der_lin.
    - exists (mn - p). split; [lra|]. intros y Hy. apply Rabs_def2 in Hy.
      apply sq_below; lra. }
  destruct (Rlt_dec mx p) as [B|B].
  { replace (sq_d1 mn mx p l) with (2 * (mx - l)) by (rsimp; rcase; try lra).
    apply near with (g := fun q => (mx - l) * (mx - l) + 2 * (mx - l) * (q - mx)).
    - apply der_lin.
    - exists (p - mx). split; [lra|]. intros y Hy. apply Rabs_def2 in Hy.
      apply sq_above; lra. }
  replace (sq_d1 mn mx p l) with (2 * (p - l)) by (rsimp; rcase; try lra).
  destruct (Req_dec p mn) as [C|C]; [destruct (Req_dec p mx) as [D|D]|destruct (Req_dec p mx) as [D|D]].
  - (* the range is one point *)
    subst mn. assert (p = mx) by lra. subst mx.
    apply near with (g := fun q => (p - l) * (p - l) + 2 * (p - l) * (q - p)).
    + apply der_lin.
    + exists 1. split; [lra|]. intros y _. destruct (Rle_dec y p).
      * now apply sq_below.
      * apply sq_above; lra.
  - subst mn.
    apply glue with (g := fun q => (q - l) * (q - l))
                    (h := fun q => (p - l) * (p - l) + 2 * (p - l) * (q - p)).
    + apply der_quad.
    + apply der_lin.
    + apply sq_in; lra.
    + ring.
    + exists (mx - p). split; [lra|]. intros y Hy. apply Rabs_def2 in Hy.
      destruct (Rle_dec p y); [left; apply sq_in; lra|right; apply sq_below; lra].
  - subst mx.
    apply glue with (g := fun q => (q - l) * (q - l))
                    (h := fun q => (p - l) * (p - l) + 2 * (p - l) * (q - p)).
    + apply der_quad.
    + apply der_lin.
    + apply sq_in; lra.
    + ring.
    + exists (p - mn). split; [lra|]. intros y Hy. apply Rabs_def2 in Hy.
      destruct (Rle_dec y p); [left; apply sq_in; lra|right; apply sq_above; lra].
  - apply near with (g := fun q => (q - l) * (q - l)).
    + apply der_quad.
    + exists (Rmin (p - mn) (mx - p)). split; [apply Rmin_glb_lt; lra|].
      intros y Hy.
      assert (Y1 := Rlt_le_trans _ _ _ Hy (Rmin_l _ _)).
      assert (Y2 := Rlt_le_trans _ _ _ Hy (Rmin_r _ _)).
      apply Rabs_def2 in Y1. apply Rabs_def2 in Y2. apply sq_in; lra.
Qed.

Lemma sq_der2 : forall mn mx p l, mn <= mx -> p <> mn -> p <> mx ->
  derivable_pt_lim (fun q => sq_d1 (O:=RF) mn mx q l) p (sq_d2 (O:=RF) mn mx p l).
Proof.
  intros mn mx p l H N1 N2.
  destruct (Rlt_dec p mn) as [A|A].
  { replace (sq_d2 mn mx p l) with 0 by (rsimp; rcase; try lra).
    apply near with (g := fun q => 2 * (mn - l) + 0 * (q - mn)).
    - apply der_lin.
    - exists (mn - p). split; [lra|]. intros y Hy. apply Rabs_def2 in Hy.
      rsimp; rcase; try lra. }
  destruct (Rlt_dec mx p) as [B|B].
  { replace (sq_d2 mn mx p l) with 0 by (rsimp; rcase; try lra).
    apply near with (g := fun q => 2 * (mx - l) + 0 * (q - mx)).
    - apply der_lin.
    - exists (p - mx). split; [lra|]. intros y Hy. apply Rabs_def2 in Hy.
      rsimp; rcase; try lra. }
  replace (sq_d2 mn mx p l) with 2 by (rsimp; rcase; try lra).
  apply near with (g := fun q => 0 + 2 * (q - l)).
  - apply der_lin.
  - exists (Rmin (p - mn) (mx - p)). split; [apply Rmin_glb_lt; lra|].
    intros y Hy.
    assert (Y1 := Rlt_le_trans _ _ _ Hy (Rmin_l _ _)).
    assert (Y2 := Rlt_le_trans _ _ _ Hy (Rmin_r _ _)).
    apply Rabs_def2 in Y1. apply Rabs_def2 in Y2. rsimp; rcase; try lra.
Qed.

(** ** Logistic loss *)

Lemma exp1_pos : forall x, 0 < 1 + exp x.
Proof. intros. pose proof (exp_pos x). lra. Qed.

Lemma lin_neg : forall a x, derivable_pt_lim (fun p => a * p) x a.
Proof.
  intros a x. apply near with (g := fun p => 0 + a * (p - 0)).
  - apply der_lin.
  - exists 1; split; [lra|]. intros; ring.
Qed.

Lemma exp_lin : forall a x, derivable_pt_lim (fun p => 1 + exp (a * p)) x (a * exp (a * x)).
Proof.
  intros a x.
  replace (a * exp (a * x)) with (0 + exp (a * x) * a) by ring.
  apply (derivable_pt_lim_plus (fun _ => 1) (fun p => exp (a * p))).
  - apply derivable_pt_lim_const.
  - apply (derivable_pt_lim_comp (fun p => a * p) exp).
    + apply lin_neg.
    + apply derivable_pt_lim_exp.
Qed.

Lemma lg_sub_der : forall s x,
  derivable_pt_lim (fun p => ln (1 + exp (- s * p))) x (- s / (1 + exp (s * x))).
Proof.
  intros s x.
  replace (- s / (1 + exp (s * x))) with (/ (1 + exp (- s * x)) * (- s * exp (- s * x))).
  - apply (derivable_pt_lim_comp (fun p => 1 + exp (- s * p)) ln).
    + apply exp_lin.
    + apply derivable_pt_lim_ln. apply exp1_pos.
  - assert (E : exp (s * x) * exp (- s * x) = 1).
    { rewrite <- exp_plus. replace (s * x + - s * x) with 0 by ring. apply exp_0. }
    pose proof (exp1_pos (s * x)). pose proof (exp_pos (- s * x)).
    replace (1 + exp (- s * x)) with (exp (- s * x) * (1 + exp (s * x))) by lra.
    field. split; lra.
Qed.

Lemma lg_sub_der2 : forall s x, s * s = 1 ->
  derivable_pt_lim (fun p => - s / (1 + exp (s * p))) x
    (1 / (1 + exp (s * x)) * (1 - 1 / (1 + exp (s * x)))).
Proof.
  intros s x S2.
  pose proof (exp1_pos (s * x)) as Hp.
  apply near with (g := div_fct (fun _ => - s) (fun p => 1 + exp (s * p))).
  - replace (1 / (1 + exp (s * x)) * (1 - 1 / (1 + exp (s * x))))
      with ((0 * (1 + exp (s * x)) - s * exp (s * x) * - s) / Rsqr (1 + exp (s * x))).
    + apply (derivable_pt_lim_div (fun _ => - s) (fun p => 1 + exp (s * p))).
      * apply derivable_pt_lim_const.
      * apply exp_lin.
      * lra.
    + unfold Rsqr. replace (s * exp (s * x) * - s) with (- exp (s * x)).
      * field. lra.
      * replace (s * exp (s * x) * - s) with (- (s * s) * exp (s * x)) by ring.
        rewrite S2. ring.
  - exists 1. split; [lra|]. intros. reflexivity.
Qed.

Definition stdl (a b l : R) : R := (l - a) / (b - a).
Lemma stdl_range : forall a b l, a < b -> a <= l <= b -> 0 <= stdl a b l <= 1.
Proof.
  intros a b l H K. unfold stdl.
  assert (0 < / (b - a)) by (apply Rinv_0_lt_compat; lra).
  split; unfold Rdiv.
  - apply Rmult_le_pos; lra.
  - apply (Rmult_le_reg_r (b - a)); [lra|]. rewrite Rmult_assoc, Rinv_l by lra. lra.
Qed.

Lemma mix_der : forall w f g x d e,
  derivable_pt_lim f x d -> derivable_pt_lim g x e ->
  derivable_pt_lim (fun p => w * f p + (1 - w) * g p) x (w * d + (1 - w) * e).
Proof.
  intros w f g x d e Hf Hg.
  apply (derivable_pt_lim_plus (fun p => w * f p) (fun p => (1 - w) * g p)).
  - apply (derivable_pt_lim_scal f w x d Hf).
  - apply (derivable_pt_lim_scal g (1 - w) x e Hg).
Qed.

Definition lgf (a b l p : R) : R :=
  stdl a b l * ln (1 + exp (- 1 * p)) + (1 - stdl a b l) * ln (1 + exp (- (-1) * p)).

Lemma lg_loss_eq : forall dbg a b l p, a <= l <= b ->
  lg_loss (O:=RF) dbg a b p l = Ok (lgf a b l p).
Proof.
  intros dbg a b l p H. unfold lg_loss. cbn [f_leb RF F].
  replace (dbg && negb (Rleb a l && Rleb l b)) with false.
  2:{ destruct (Rleb_spec a l), (Rleb_spec l b); try lra; now rewrite andb_false_r. }
  unfold lg_mix, lg_loss_sub, fm1, std_label, lgf, stdl. rewrite RF_f1.
  cbn [f_add f_sub f_mul f_div f_neg f_exp f_ln RF F]. do 3 f_equal.
Qed.
Lemma lg_d1_eq : forall a b l p,
  lg_d1 (O:=RF) a b p l
  = stdl a b l * (- 1 / (1 + exp (1 * p))) + (1 - stdl a b l) * (- (-1) / (1 + exp (-1 * p))).
Proof.
  intros. unfold lg_d1, lg_mix, lg_d1_sub, fm1, std_label, stdl. rewrite RF_f1.
  cbn [f_add f_sub f_mul f_div f_neg f_exp f_ln RF F].
  replace (- (1)) with (-1) by lra. reflexivity.
Qed.
Lemma lg_d2_eq : forall a b l p,
  lg_d2 (O:=RF) a b p l
  = stdl a b l * (1 / (1 + exp (1 * p)) * (1 - 1 / (1 + exp (1 * p))))
    + (1 - stdl a b l) * (1 / (1 + exp (-1 * p)) * (1 - 1 / (1 + exp (-1 * p)))).
Proof.
  intros. unfold lg_d2, lg_mix, lg_d2_sub, fm1, std_label, stdl. rewrite RF_f1.
  cbn [f_add f_sub f_mul f_div f_neg f_exp f_ln RF F].
  replace (- (1)) with (-1) by lra. reflexivity.
Qed.

Lemma ln1_nonneg : forall x, 0 <= ln (1 + exp x).
Proof.
  intros. rewrite <- ln_1. pose proof (exp_pos x). left. apply ln_increasing; lra.
Qed.
Lemma q_range : forall x, 0 <= 1 / (1 + exp x) * (1 - 1 / (1 + exp x)).
Proof.
  intros. pose proof (exp_pos x). assert (0 < / (1 + exp x)) by (apply Rinv_0_lt_compat; lra).
  assert (/ (1 + exp x) * (1 + exp x) = 1) by (apply Rinv_l; lra).
  unfold Rdiv. rewrite Rmult_1_l. apply Rmult_le_pos; nra.
Qed.

(** ** Both *)

Lemma first_derivative : forall dbg k mn mx l, label_ok k mn mx l ->
  exists f : R -> R,
    (forall p, loss_get (O:=RF) dbg k mn mx p l = Ok (f p)) /\
    (forall p, 0 <= f p) /\
    (forall p, derivable_pt_lim f p (loss_d1 (O:=RF) k mn mx p l)).
Proof.
  intros dbg [|a b] mn mx l H; simpl in H.
  - exists (fun p => sq_loss (O:=RF) mn mx p l). split; [reflexivity|]. split; intros p.
    + now apply sq_nonneg.
    + apply sq_der. lra.
  - destruct H as [H1 H2]. pose proof (stdl_range a b l H1 H2) as W.
    exists (lgf a b l). split; [intros; apply lg_loss_eq; lra|]. split; intros p.
    + unfold lgf. pose proof (ln1_nonneg (- 1 * p)). pose proof (ln1_nonneg (- (-1) * p)).
      apply Rplus_le_le_0_compat; apply Rmult_le_pos; lra.
    + cbn [loss_d1]. rewrite lg_d1_eq. unfold lgf. apply mix_der; apply lg_sub_der.
Qed.

Lemma second_derivative : forall k mn mx l p,
  match k with LossSquared => mn <= mx /\ p <> mn /\ p <> mx | LossLogistic _ _ => True end ->
  derivable_pt_lim (fun q => loss_d1 (O:=RF) k mn mx q l) p (loss_d2 (O:=RF) k mn mx p l).
Proof.
  intros [|a b] mn mx l p H.
  - destruct H as (H & N1 & N2). now apply sq_der2.
  - cbn [loss_d1 loss_d2]. rewrite lg_d2_eq.
    eapply near; [apply mix_der; apply lg_sub_der2; lra|].
    exists 1. split; [lra|]. intros y _. apply lg_d1_eq.
Qed.

Lemma convex : forall k mn mx l p, label_ok k mn mx l -> 0 <= loss_d2 (O:=RF) k mn mx p l.
Proof.
  intros [|a b] mn mx l p H; cbn [loss_d2].
  - unfold sq_d2. rewrite RF_fl, RF_f0. destruct (_ && _); lra.
  - destruct H as [H1 H2]. pose proof (stdl_range a b l H1 H2) as W. rewrite lg_d2_eq.
    pose proof (q_range (1 * p)). pose proof (q_range (-1 * p)).
    apply Rplus_le_le_0_compat; apply Rmult_le_pos; lra.
Qed.

Lemma outside : forall mn mx p l, mn <= mx ->
  (p <= mn -> sq_loss (O:=RF) mn mx p l
              = sq_loss (O:=RF) mn mx mn l + sq_d1 (O:=RF) mn mx mn l * (p - mn)) /\
  (mx <= p -> sq_loss (O:=RF) mn mx p l
              = sq_loss (O:=RF) mn mx mx l + sq_d1 (O:=RF) mn mx mx l * (p - mx)).
Proof.
  intros mn mx p l H. split; intros K.
  - rewrite sq_below, sq_below by lra.
    replace (sq_d1 mn mx mn l) with (2 * (mn - l)) by (rsimp; rcase; lra).
    apply Rminus_diag_uniq; ring.
  - rewrite sq_above, sq_above by lra.
    replace (sq_d1 mn mx mx l) with (2 * (mx - l)) by (rsimp; rcase; lra).
    apply Rminus_diag_uniq; ring.
Qed.

Lemma step : forall p l s u, 0 <= s -> 0 <= u ->
  seg p l (p + u * sq_update (O:=RF) p l s u).
Proof.
  intros p l s u Hs Hu. unfold sq_update. rewrite RF_fl, RF_f1.
  cbn [f_add f_sub f_mul f_div f_neg f_exp f_ln f_eqb f_ltb f_leb f_lit RF F].
  assert (Q : forall w, 0 <= w <= 1 -> seg p l (p + w * (l - p))).
  { intros w Hw. unfold seg. destruct (Rle_dec p l); [left|right]; nra. }
  pose proof (Rmult_le_pos s u Hs Hu).
  destruct (Rltb_spec (s * u) (1 / 1000000)).
  - replace (p + u * (2 * (l - p) * s)) with (p + (2 * (s * u)) * (l - p)) by ring.
    apply Q. lra.
  - assert (u <> 0) by (intro; subst; lra).
    replace (p + u * ((l - p) * (1 - exp (- (2) * s * u)) / u))
      with (p + (1 - exp (- (2) * s * u)) * (l - p)) by (field; auto).
    apply Q. pose proof (exp_pos (- (2) * s * u)).
    assert (exp (- (2) * s * u) < 1).
    { rewrite <- exp_0. apply exp_increasing. nra. }
    lra.
Qed.

Lemma step_strict : forall p l s u, 0 < s -> 0 < u -> p <> l ->
  p + u * sq_update (O:=RF) p l s u <> p.
Proof.
  intros p l s u Hs Hu N. unfold sq_update. rewrite RF_fl, RF_f1.
  cbn [f_add f_sub f_mul f_div f_neg f_exp f_ln f_eqb f_ltb f_leb f_lit RF F].
  pose proof (Rmult_lt_0_compat s u Hs Hu).
  assert (NZ : l - p <> 0) by lra.
  destruct (Rltb_spec (s * u) (1 / 1000000)).
  - intros E. apply NZ.
    apply (Rmult_eq_reg_l (2 * (s * u))); [|lra]. nra.
  - assert (exp (- (2) * s * u) < 1).
    { rewrite <- exp_0. apply exp_increasing. nra. }
    replace (p + u * ((l - p) * (1 - exp (- (2) * s * u)) / u))
      with (p + (1 - exp (- (2) * s * u)) * (l - p)) by (field; lra).
    intros E. apply NZ.
    apply (Rmult_eq_reg_l (1 - exp (- (2) * s * u))); [|lra]. lra.
Qed.

Lemma gradient_step : forall k mn mx p l s,
  match k with LossSquared => mn <= p <= mx | LossLogistic _ _ => True end ->
  loss_unsafe_update (O:=RF) k p l s = - s * loss_d1 (O:=RF) k mn mx p l /\
  loss_square_grad (O:=RF) k p l = loss_d1 (O:=RF) k mn mx p l * loss_d1 (O:=RF) k mn mx p l.
Proof.
  intros [|a b] mn mx p l s H; cbn [loss_unsafe_update loss_square_grad loss_d1].
  - unfold sq_unsafe_update, sq_square_grad.
    replace (sq_d1 mn mx p l) with (2 * (p - l)) by (rsimp; rcase; lra).
    rewrite !RF_fl. cbn [f_add f_sub f_mul f_div f_neg RF F]. split; ring.
  - split; [|reflexivity].
    rewrite lg_d1_eq.
    unfold lg_unsafe_update, lg_mix, lg_unsafe_update_sub, fm1, std_label, stdl.
    rewrite RF_f1. cbn [f_add f_sub f_mul f_div f_neg f_exp f_ln RF F].
    replace (- (1)) with (-1) by lra. unfold Rdiv. ring.
Qed.

(** At the ends of a proper range the first derivative has a corner. *)
Lemma corner : forall mn mx l, mn < mx ->
  ~ exists d, derivable_pt_lim (fun q => sq_d1 (O:=RF) mn mx q l) mn d.
Proof.
  intros mn mx l H (d & D).
  assert (E : forall q, q < mn -> sq_d1 (O:=RF) mn mx q l = 2 * (mn - l))
    by (intros; rsimp; rcase; lra).
  assert (G : forall q, mn <= q <= mx -> sq_d1 (O:=RF) mn mx q l = 2 * (q - l))
    by (intros; rsimp; rcase; lra).
  destruct (D (1/2)) as [e He]; [lra|].
  set (h := Rmin (e / 2) (mx - mn)).
  assert (P : 0 < h) by (apply Rmin_glb_lt; [pose proof (cond_pos e)|]; lra).
  assert (L1 : h <= e / 2) by apply Rmin_l.
  assert (L2 : h <= mx - mn) by apply Rmin_r.
  pose proof (cond_pos e).
  assert (A := He h). assert (B := He (- h)).
  rewrite Rabs_pos_eq in A by lra. rewrite Rabs_Ropp, Rabs_pos_eq in B by lra.
  specialize (A ltac:(lra) ltac:(lra)). specialize (B ltac:(lra) ltac:(lra)).
  rewrite G, G in A by lra. rewrite E, G in B by lra.
  replace ((2 * (mn + h - l) - 2 * (mn - l)) / h - d) with (2 - d) in A by (field; lra).
  replace ((2 * (mn - l) - 2 * (mn - l)) / - h - d) with (- d) in B by (field; lra).
  apply Rabs_def2 in A. apply Rabs_def2 in B. lra.
Qed.
