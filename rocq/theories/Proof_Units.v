(** Other units for the values, in exact arithmetic. *)
From Coq Require Import List NArith ZArith Bool Lia Reals Lra.
From Verif Require Import Base FloatOps FloatR Model_Hash Model_Features Model_Types Model_Interactions Model_Weights
  Model_Coin Model_Stack Model_Factory Spec_Stack Spec_Reductions Spec_Save Spec_Empty Spec_Units
  Proof_StackTwo Proof_Retell.
Import ListNotations.
Open Scope R_scope.

Section Units.
Context (u : N -> R) (U : forall i, u i <> 0).
Definition uva (i : N) (x : RF) : RF := (u i * x : R).
Definition ufac (i : N) (n : nat) (x : RF) : RF :=
  match n with
  | 0%nat => (x / u i : R)
  | 1%nat => (u i * x : R)
  | 2%nat | 3%nat => (Rabs (u i) * x : R)
  | _ => x
  end.
Lemma Rltb_true : forall a b, Rltb a b = true <-> a < b.
Proof. intros a b. destruct (Rltb_spec a b); split; auto; try discriminate; lra. Qed.
Lemma ltb_scale : forall c a b, 0 < c -> Rltb (c * a) (c * b) = Rltb a b.
Proof.
  intros c a b C. destruct (Rltb_spec a b) as [L|L].
  - apply Rltb_true. now apply Rmult_lt_compat_l.
  - destruct (Rltb_spec (c * a) (c * b)) as [L'|]; auto. exfalso. apply L. now apply Rmult_lt_reg_l in L'.
Qed.
Lemma ltb0_scale : forall c b, 0 < c -> Rltb 0 (c * b) = Rltb 0 b.
Proof. intros c b C. rewrite <- (ltb_scale c 0 b C). now rewrite Rmult_0_r. Qed.
Lemma max_scale : forall c a b, 0 < c -> Rmax (c * a) (c * b) = c * Rmax a b.
Proof. intros c a b C. apply RmaxRmult. lra. Qed.
Lemma abs_pos : forall i, 0 < Rabs (u i).
Proof. intros i. apply Rabs_pos_lt, U. Qed.
Lemma abs_sq : forall i, Rabs (u i) * Rabs (u i) = u i * u i.
Proof. intros i. rewrite <- Rabs_mult. apply Rabs_pos_eq. apply Rle_0_sqr. Qed.
Lemma uva_abs : forall i x, Rabs (u i * x) = Rabs (u i) * Rabs x.
Proof. intros. apply Rabs_mult. Qed.
(** the step size *)
Lemma step_scale : forall i k m g z, k / (Rabs (u i) * m * (Rabs (u i) * m + Rabs (u i) * g)) * (u i * z) = k / (m * (m + g)) * z / u i.
Proof.
  intros i k m g z. pose proof (U i) as Ui. replace (Rabs (u i) * m * (Rabs (u i) * m + Rabs (u i) * g)) with (Rabs (u i) * Rabs (u i) * (m * (m + g))) by ring.
  rewrite abs_sq. unfold Rdiv. rewrite (Rinv_mult (u i * u i)). rewrite (Rinv_mult (u i)).
  replace (k * (/ u i * / u i * / (m * (m + g))) * (u i * z)) with (k * / (m * (m + g)) * z * / u i * (u i * / u i)) by ring.
  rewrite Rinv_r by exact Ui. ring.
Qed.
Lemma units_predict : forall cfg acc x i (st st' : list RF), srelz (O := RF) ufac i st st' ->
  inner_predict cfg acc (uva i x) st' = inner_predict cfg acc x st.
Proof.
  intros cfg acc x i st st' (L1 & L2 & E). unfold inner_predict. rewrite L1, L2. cbn [Nat.eqb].
  unfold W_XT, W_ZT, W_G2, W_MX, W_WE, W_MG. rewrite !E by lia. cbn [ufac]. rewrite !RF_max, !RF_f0. unfold f_gtb.
  cbn [f_add f_mul f_div f_abs f_ltb RF]. unfold uva. rewrite uva_abs, max_scale by apply abs_pos.
  generalize (sg st 1) (sg st 2) (sg st 3) (sg st 4) (sg st 5) (cc_alpha cfg) (fst acc) (snd acc).
  intros z g m w mg al p0 n0. change (F RF) with R in *. set (M := Rmax m (Rabs x)).
  replace (mg * (Rabs (u i) * M)) with (Rabs (u i) * (mg * M)) by ring.
  rewrite (ltb0_scale (Rabs (u i)) (mg * M)) by apply abs_pos. rewrite step_scale. pose proof (U i) as Ui. pose proof (abs_pos i) as Ap.
  f_equal. f_equal.
  - destruct (Rltb 0 (mg * M)).
    + f_equal. unfold Rdiv at 1. rewrite (Rmult_assoc _ (/ u i)). rewrite <- (Rmult_assoc (/ u i)), Rinv_l by exact Ui. ring.
    + ring.
  - replace (Rltb 0 (Rabs (u i) * M)) with (Rltb 0 M) by (symmetry; now apply ltb0_scale). destruct (Rltb_spec 0 M); auto. f_equal.
    replace (u i * x / (Rabs (u i) * M) * (u i * x / (Rabs (u i) * M))) with (u i * u i * / (Rabs (u i) * Rabs (u i)) * (x / M * (x / M))).
    + rewrite abs_sq, Rinv_r; [ring|]. apply Rmult_integral_contrapositive_currified; exact Ui.
    + unfold Rdiv. rewrite !Rinv_mult. ring.
Qed.
Lemma units_update : forall cfg avg up x i (st st' : list RF), srelz (O := RF) ufac i st st' ->
  orel (srelz (O := RF) ufac i) (inner_update cfg avg up x st) (inner_update cfg avg up (uva i x) st').
Proof.
  intros cfg avg up x i st st' (L1 & L2 & E). unfold inner_update. rewrite L1, L2. cbn [Nat.eqb]. constructor.
  unfold W_XT, W_ZT, W_G2, W_MX, W_WE, W_MG. rewrite !E by lia. cbn [ufac]. rewrite !RF_f0. unfold f_gtb.
  cbn [f_add f_mul f_div f_abs f_ltb f_neg RF]. unfold uva. rewrite uva_abs. pose proof (U i) as Ui. pose proof (abs_pos i) as Ap.
  generalize (sg st 1) (sg st 2) (sg st 3) (sg st 4) (sg st 5) (cc_alpha cfg) (cc_beta cfg).
  intros z g m w mg al be. change (F RF) with R in *.
  rewrite ltb_scale by exact Ap.
  replace (if Rltb m (Rabs x) then Rabs (u i) * Rabs x else Rabs (u i) * m) with (Rabs (u i) * (if Rltb m (Rabs x) then Rabs x else m))
    by (destruct (Rltb m (Rabs x)); reflexivity).
  set (M := if Rltb m (Rabs x) then Rabs x else m). set (G := if Rltb mg (Rabs up) then _ else mg).
  replace (G * (Rabs (u i) * M)) with (Rabs (u i) * (G * M)) by ring. rewrite (ltb0_scale (Rabs (u i)) (G * M)) by exact Ap. rewrite step_scale.
  set (K := (al + w) / (G * M * (G * M + g)) * z).
  replace (if Rltb 0 (G * M) then K / u i else 0) with ((if Rltb 0 (G * M) then K else 0) / u i)
    by (destruct (Rltb 0 (G * M)); [reflexivity|unfold Rdiv; apply Rmult_0_l]).
  set (X := if Rltb 0 (G * M) then K else 0).
  split; [reflexivity|]. split; [reflexivity|]. intros n Hn.
  destruct n as [|[|[|[|[|[|n]]]]]]; try lia; unfold sg; cbn [nth ufac]; match goal with |- @eq _ ?a ?b => change (@eq R a b) end.
  - unfold Rdiv. ring.
  - ring.
  - replace (up * (u i * x)) with (u i * (up * x)) by ring. rewrite uva_abs. ring.
  - reflexivity.
  - f_equal. unfold Rdiv. replace (- (up * (u i * x)) * (X * / u i)) with (- (up * x) * X * (u i * / u i)) by ring. rewrite Rinv_r by exact Ui. ring.
  - reflexivity.
Qed.
Lemma units_dot : forall k (x w : RF), f_mul RF (uva k x) (ufac k 0 w) = f_mul RF x w.
Proof.
  intros k x w. cbn [f_mul RF ufac]. unfold uva. pose proof (U k) as Uk. unfold Rdiv. match goal with |- @eq _ ?a ?b => change (@eq R a b) end.
  replace (u k * x * (w * / u k)) with (x * w * (u k * / u k)) by ring. rewrite Rinv_r by exact Uk. ring.
Qed.
Lemma units_answers : forall H gc (c : rcfg RF) R0 cs, (gc_bits gc < 32)%N -> gc_inter gc = [] -> (gc_const gc = true -> u (2 ^ gc_bits gc / 2) = 1) ->
  ws_new H false gc c = Ok R0 -> elem_free (projT1 R0) (projT2 R0) -> Forall paired_call cs ->
  answers false (projT2 R0) (map (retell_call (fun i => i) uva) cs) = map (retell_answer (fun i => i) uva) (answers false (projT2 R0) cs).
Proof.
  intros H gc c R0 cs B NI U1 E EF F.
  assert (K : crelz (O := RF) (fun i => i) uva ufac (bottom _ (projT2 R0)) (bottom _ (projT2 R0))).
  { apply (new_crelz H gc (fun i => i) uva ufac B NI) with (c := c).
    - split; [auto|split; [intros; tauto|auto]].
    - intros Q. unfold uva. rewrite U1 by exact Q. rewrite RF_f1. apply Rmult_1_l.
    - intros i n. rewrite RF_f0. destruct n as [|[|[|[|n]]]]; cbn [ufac]; try apply Rmult_0_r; auto. unfold Rdiv. apply Rmult_0_l.
    - exact E. }
  apply (answers_z (fun i => i) uva (crelz (O := RF) (fun i => i) uva ufac) False).
  - intros c0 c' a b. apply (predict_cz (O := RF)). exact units_dot.
  - intros c0 c' a b v w. apply (learn_cz (O := RF) (fun i => i) uva ufac (fun i j q => q) units_predict units_update).
  - tauto.
  - apply free_rrelz; auto.
  - eapply Forall_impl; [|exact F]. intros [f|f lb|f lb|f]; simpl; tauto.
Qed.
End Units.
