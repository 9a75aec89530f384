(** Square roots in binary32 are rounded like the other operations, and all operations
    stay within the floats. *)
From Coq Require Import ZArith Bool Lia Reals Lra.
From Coq Require Import Floats.SpecFloat.
From Verif Require Import Base FloatOps FloatB32 Spec_FloatReal Proof_FloatZero Proof_FloatRound.
Open Scope Z_scope.

Local Notation fexp := (fexp 24 128).

Lemma sqrt_loc_sem : forall m q r, 0 <= q -> m = q * q + r -> 0 <= r <= 2 * q ->
  sem (shr_record_of_loc q (if Zeq_bool r 0 then loc_Exact else loc_Inexact (if r <=? q then Lt else Gt))) (sqrt (IZR m)).
Proof.
  intros m q r Hq E Hr. assert (Q0 : (0 <= IZR q)%R) by (apply IZR_le; lia).
  assert (M0 : (0 <= IZR m)%R) by (apply IZR_le; nia).
  assert (EM : (IZR m = IZR q * IZR q + IZR r)%R) by (rewrite E, plus_IZR, mult_IZR; reflexivity).
  set (y := sqrt (IZR m)). assert (Y0 : (0 <= y)%R) by apply sqrt_pos. assert (Y2 : (y * y = IZR m)%R) by (apply sqrt_sqrt; auto).
  assert (U : (y < IZR q + 1)%R).
  { apply Rnot_le_lt. intros C. assert (IZR r <= 2 * IZR q)%R by (rewrite <- mult_IZR; apply IZR_le; lia). nra. }
  destruct (Zeq_bool r 0) eqn:Z0.
  - apply Zeq_bool_eq in Z0. subst r. unfold sem; cbn [shr_record_of_loc shr_m shr_r shr_s]. cbn in EM.
    assert ((y - IZR q) * (y + IZR q) = 0)%R by nra. apply Rmult_integral in H. destruct H; lra.
  - apply Zeq_bool_neq in Z0. assert (R0 : (1 <= IZR r)%R) by (apply IZR_le; lia).
    assert (L : (IZR q < y)%R) by (apply Rnot_le_lt; intros C; nra).
    destruct (r <=? q) eqn:C; unfold sem; cbn [shr_record_of_loc shr_m shr_r shr_s].
    + apply Z.leb_le in C. apply IZR_le in C. split; [lra|]. apply Rnot_le_lt. intros D. nra.
    + apply Z.leb_gt in C. assert (IZR q + 1 <= IZR r)%R by (rewrite <- plus_IZR; apply IZR_le; lia).
      split; [|lra]. apply Rnot_le_lt. intros D. nra.
Qed.

Lemma sqrt_near : forall a, bok a -> bfin a = true -> (0 <= bval a)%R -> near (sqrt (bval a)) (b_sqrt a).
Proof.
  intros a Ok Fa P. destruct a as [s|s| |s m e]; try discriminate.
  - cbn [bval]. rewrite sqrt_0. apply zero_near.
  - assert (Pm : (0 < IZR (Zpos m) * p2 e)%R) by (apply Rmult_lt_0_compat; [apply IZR_lt; lia|apply p2_pos]).
    destruct s; [cbn [bval bsgn] in P; lra|]. unfold b_sqrt. cbn [SFsqrt bval].
    unfold SFsqrt_core_binary. change (Zdigits2 (Zpos m)) with (Zpos (digits2_pos m)).
    set (d := Zpos (digits2_pos m)). set (k := Z.min (fexp (Z.div2 (d + e + 1))) (Z.div2 e)).
    set (w := e - 2 * k). assert (D2 : forall z, 2 * Z.div2 z <= z <= 2 * Z.div2 z + 1).
    { intros z. rewrite Z.div2_div. pose proof (Z.div_mod z 2 ltac:(lia)). pose proof (Z.mod_pos_bound z 2 ltac:(lia)). lia. }
    assert (Hw : 0 <= w). { unfold w, k. pose proof (D2 e). lia. }
    assert (Em : match w with Zpos p => Z.shiftl (Zpos m) w | 0 => Zpos m | Zneg _ => 0 end = Zpos m * 2 ^ w).
    { destruct w; [rewrite Z.pow_0_r; lia|rewrite Z.shiftl_mul_pow2 by lia; reflexivity|lia]. }
    rewrite Em. set (m' := Zpos m * 2 ^ w). assert (P2w : 0 < 2 ^ w) by (apply Z.pow_pos_nonneg; lia). assert (Hm' : 0 < m') by (unfold m'; nia).
    pose proof (Z.sqrtrem_spec m' ltac:(lia)) as SQ. destruct (Z.sqrtrem m') as (q, r). destruct SQ as (SQ & Hr).
    assert (Hq : 0 <= q) by lia.
    assert (NV : (sqrt (bsgn false * (IZR (Zpos m) * p2 e)) = bsgn false * (sqrt (IZR m') * p2 k))%R).
    { unfold bsgn. rewrite !Rmult_1_l. replace (IZR (Zpos m) * p2 e)%R with (IZR m' * (p2 k * p2 k))%R.
      - rewrite sqrt_mult_alt by (apply IZR_le; lia). rewrite sqrt_square by (apply Rlt_le, p2_pos). reflexivity.
      - unfold m'. rewrite mult_IZR, <- p2_Z by lia. rewrite Rmult_assoc, <- !p2_add. f_equal. f_equal. unfold w. lia. }
    rewrite NV. apply round_aux_near; [exact Hq| |now apply sqrt_loc_sem].
    assert (Dq : Z.div2 (d + w + 1) <= Zdigits2 q).
    { pose proof (digits_le m) as DL. fold d in DL. pose proof (D2 (d + w + 1)) as DW. set (h := Z.div2 (d + w + 1)) in *.
      destruct (Z.le_gt_cases h 0); [pose proof (zdigits_nn q); lia|]. apply zdigits_ge; [lia|].
      apply Z.nlt_ge. intros L. assert (T : (q + 1) * (q + 1) <= 2 ^ (h - 1) * 2 ^ (h - 1)) by (apply Z.mul_le_mono_nonneg; lia).
      rewrite <- Z.pow_add_r in T by lia.
      assert (2 ^ (h - 1 + (h - 1)) <= 2 ^ (d - 1 + w)) by (apply Z.pow_le_mono_r; lia).
      rewrite (Z.pow_add_r 2 (d - 1) w) in H0 by (unfold d; lia). assert (2 ^ (d - 1) * 2 ^ w <= m') by (unfold m'; nia). nia. }
    assert (E2 : Z.div2 (d + e + 1) = Z.div2 (d + w + 1) + k).
    { replace (d + e + 1) with (d + w + 1 + k * 2) by (unfold w; lia). rewrite !Z.div2_div, Z.div_add by lia. reflexivity. }
    rewrite fexp_def. assert (k <= Z.max (Z.div2 (d + e + 1) - 24) (-149)) by (unfold k; rewrite fexp_def; lia). lia.
Qed.

(** ** closure *)
Lemma near_ok : forall x r, near x r -> bok r.
Proof. intros x r (H & _). exact H. Qed.
Lemma inf_ok : forall s, bok (S754_infinity s). Proof. reflexivity. Qed.
Lemma zer_ok : forall s, bok (S754_zero s). Proof. reflexivity. Qed.
Lemma nan_ok : bok S754_nan. Proof. reflexivity. Qed.
Lemma of_Z_ok : forall z, bok (b_of_Z z).
Proof. intros. eapply near_ok, of_Z_near. Qed.
Lemma add_ok : forall a b, bok a -> bok b -> bok (b_add a b).
Proof.
  intros a b Ha Hb. destruct (bfin a) eqn:Fa; [destruct (bfin b) eqn:Fb|].
  - eapply near_ok, add_near; auto.
  - destruct a, b; try discriminate; cbn; auto.
  - destruct a, b; try discriminate; cbn; auto. destruct (Bool.eqb _ _); reflexivity.
Qed.
Lemma sub_ok : forall a b, bok a -> bok b -> bok (b_sub a b).
Proof.
  intros a b Ha Hb. destruct (bfin a) eqn:Fa; [destruct (bfin b) eqn:Fb|].
  - eapply near_ok, sub_near; auto.
  - destruct a, b; try discriminate; cbn; auto.
  - destruct a, b; try discriminate; cbn; auto. destruct (Bool.eqb _ _); reflexivity.
Qed.
Lemma mul_ok : forall a b, bok a -> bok b -> bok (b_mul a b).
Proof.
  intros a b Ha Hb. destruct (bfin a) eqn:Fa; [destruct (bfin b) eqn:Fb|].
  - eapply near_ok, mul_near; auto.
  - destruct a, b; try discriminate; cbn; auto.
  - destruct a, b; try discriminate; cbn; auto.
Qed.
Lemma div_ok : forall a b, bok a -> bok b -> bok (b_div a b).
Proof.
  intros a b Ha Hb. destruct a as [s|s| |s m e], b as [t|t| |t n f]; try reflexivity.
  eapply near_ok, div_near; try reflexivity. cbn [bval]. assert (0 < IZR (Zpos n))%R by (apply IZR_lt; lia). pose proof (p2_pos f).
  assert (0 < IZR (Zpos n) * p2 f)%R by (apply Rmult_lt_0_compat; lra). destruct t; unfold bsgn; lra.
Qed.
Lemma abs_ok : forall a, bok a -> bok (SFabs a).
Proof. intros [s|s| |s m e]; auto. Qed.
Lemma sqrt_ok : forall a, bok a -> bok (b_sqrt a).
Proof.
  intros a Ha. destruct a as [s|[]| |[] m e]; try reflexivity.
  eapply near_ok, sqrt_near; auto. cbn [bval bsgn]. assert (0 < IZR (Zpos m))%R by (apply IZR_lt; lia). pose proof (p2_pos e).
  assert (0 < IZR (Zpos m) * p2 e)%R by (apply Rmult_lt_0_compat; lra). lra.
Qed.
Lemma lit_ok : forall n d, bok (b_lit n d).
Proof. intros n d. unfold b_lit. destruct d; auto using of_Z_ok, div_ok. Qed.
Lemma signum_ok : forall a, bok a -> bok (b_signum a).
Proof. intros [s|s| |s m e] H; try destruct s; reflexivity. Qed.
