(** Rounding in binary32: the value of every operation is the exact one up to a relative
    error of 2^-24 and an absolute one of 2^-150, or it is infinite and the exact one is at
    least 2^127.  Proved from the definitions of the standard library. *)
From Coq Require Import ZArith Bool Lia Reals Lra.
From Coq Require Import Floats.SpecFloat.
From Verif Require Import Base FloatOps FloatB32 Spec_FloatReal Proof_FloatZero.
Open Scope Z_scope.

Local Notation fexp := (fexp 24 128).

(** ** powers of two *)
Lemma p2_pos : forall e, (0 < p2 e)%R.
Proof. intros. apply powerRZ_lt. lra. Qed.
Lemma p2_add : forall a b, p2 (a + b) = (p2 a * p2 b)%R.
Proof. intros. apply powerRZ_add. lra. Qed.
Lemma p2_Z : forall z, 0 <= z -> p2 z = IZR (2 ^ z).
Proof.
  intros z H. rewrite <- (Z2Nat.id z H) at 2. rewrite <- pow_IZR. unfold p2. rewrite <- (Z2Nat.id z H) at 1. now rewrite <- pow_powerRZ.
Qed.
Lemma p2_succ : forall e, p2 (e + 1) = (2 * p2 e)%R.
Proof. intros. rewrite p2_add. change (p2 1) with (powerRZ 2 1). rewrite powerRZ_1. ring. Qed.
Lemma p2_inv : forall e, (p2 (- e) * p2 e = 1)%R.
Proof. intros. rewrite <- p2_add. replace (- e + e) with 0 by lia. reflexivity. Qed.
Lemma p2_le : forall a b, a <= b -> (p2 a <= p2 b)%R.
Proof.
  intros a b H. replace b with ((b - a) + a) by lia. rewrite p2_add, (p2_Z (b - a)) by lia. pose proof (p2_pos a).
  assert (1 <= IZR (2 ^ (b - a)))%R. { apply IZR_le. pose proof (Z.pow_pos_nonneg 2 (b - a)). lia. } nra.
Qed.

(** ** what a shifted record stands for *)
Definition sem (r : shr_record) (y : R) : Prop :=
  let m := IZR (shr_m r) in
  match shr_r r, shr_s r with
  | false, false => y = m
  | false, true => (m < y < m + / 2)%R
  | true, false => y = (m + / 2)%R
  | true, true => (m + / 2 < y < m + 1)%R
  end.
Lemma sem_bounds : forall r y, sem r y -> (IZR (shr_m r) <= y < IZR (shr_m r) + 1)%R.
Proof. intros [m [] []] y; unfold sem; cbn [shr_m shr_r shr_s]; lra. Qed.
Lemma shr_1_sem : forall r y, 0 <= shr_m r -> sem r y -> sem (shr_1 r) (y / 2).
Proof.
  intros [m r s] y H S. cbn [shr_m] in H. unfold sem in *. cbn [shr_m shr_r shr_s] in S.
  destruct m as [|[p|p|]|p]; try lia; cbn [shr_1 shr_m shr_r shr_s].
  - destruct r, s; cbn [orb]; lra.
  - change (Zpos p~1) with (2 * Zpos p + 1) in S. rewrite plus_IZR, mult_IZR in S. destruct r, s; cbn [orb]; lra.
  - change (Zpos p~0) with (2 * Zpos p) in S. rewrite mult_IZR in S. destruct r, s; cbn [orb]; lra.
  - destruct r, s; cbn [orb]; lra.
Qed.
Lemma shr_1_nn : forall r, 0 <= shr_m r -> 0 <= shr_m (shr_1 r).
Proof. intros r H. rewrite shr_1_m by auto. apply Z.div_pos; lia. Qed.
Lemma shr_iter_nn : forall p r, 0 <= shr_m r -> 0 <= shr_m (iter_pos shr_1 p r).
Proof. intros p r H. rewrite shr_iter_m by auto. apply Z.div_pos; lia. Qed.
Lemma shr_iter_sem : forall p r y, 0 <= shr_m r -> sem r y -> sem (iter_pos shr_1 p r) (y * p2 (- Zpos p)).
Proof.
  induction p as [p IH|p IH|]; intros r y H S; cbn [iter_pos].
  - replace (y * p2 (- Zpos p~1))%R with (y / 2 * p2 (- Zpos p) * p2 (- Zpos p))%R.
    + apply IH; [apply shr_iter_nn, shr_1_nn, H|]. apply IH; [now apply shr_1_nn|]. now apply shr_1_sem.
    + replace (- Zpos p~1) with (- Zpos p + - Zpos p + - (1)) by lia. rewrite !p2_add.
      assert (p2 (- (1)) = / 2)%R as ->. { pose proof (p2_inv 1) as K. change (p2 1) with (powerRZ 2 1) in K. rewrite powerRZ_1 in K. lra. }
      field.
  - replace (y * p2 (- Zpos p~0))%R with (y * p2 (- Zpos p) * p2 (- Zpos p))%R.
    + apply IH; [now apply shr_iter_nn|]. now apply IH.
    + replace (- Zpos p~0) with (- Zpos p + - Zpos p) by lia. rewrite p2_add. ring.
  - assert (p2 (- (1)) = / 2)%R as ->. { pose proof (p2_inv 1) as K. change (p2 1) with (powerRZ 2 1) in K. rewrite powerRZ_1 in K. lra. }
    now apply shr_1_sem.
Qed.

Lemma digits_gt : forall p, Zpos p < 2 ^ Zpos (digits2_pos p).
Proof. intros p. rewrite digits_size. pose proof (Pos.size_gt p) as K. assert (E : Zpos (2 ^ Pos.size p) = 2 ^ Zpos (Pos.size p)) by apply Pos2Z.inj_pow. lia. Qed.
Lemma zdigits_nn : forall m, 0 <= Zdigits2 m.
Proof. destruct m; cbn [Zdigits2]; lia. Qed.
Lemma zdigits_gt : forall m, 0 <= m -> m < 2 ^ Zdigits2 m.
Proof. intros [|p|p] H; [cbn; lia|apply digits_gt|lia]. Qed.
Lemma zdigits_le : forall m, 0 < m -> 2 ^ (Zdigits2 m - 1) <= m.
Proof. intros [|p|p] H; try lia. apply digits_le. Qed.
Lemma zdigits_bound : forall m k, 0 <= m -> 0 <= k -> m < 2 ^ k -> Zdigits2 m <= k.
Proof.
  intros m k H K L. destruct (Z.eq_dec m 0) as [->|N]; [cbn; lia|]. pose proof (zdigits_le m ltac:(lia)) as D.
  destruct (Z.le_gt_cases (Zdigits2 m) k); auto. exfalso.
  assert (2 ^ k <= 2 ^ (Zdigits2 m - 1)) by (apply Z.pow_le_mono_r; lia). lia.
Qed.
Lemma zdigits_ge : forall m k, 0 < k -> 2 ^ (k - 1) <= m -> k <= Zdigits2 m.
Proof.
  intros m k K L. assert (0 < m) by (pose proof (Z.pow_pos_nonneg 2 (k - 1)); lia). pose proof (zdigits_gt m ltac:(lia)) as D.
  destruct (Z.le_gt_cases k (Zdigits2 m)); auto. exfalso.
  assert (2 ^ Zdigits2 m <= 2 ^ (k - 1)) by (apply Z.pow_le_mono_r; lia). lia.
Qed.
Lemma fexp_def : forall k, fexp k = Z.max (k - 24) (-149).
Proof. reflexivity. Qed.

(** the first shift *)
Lemma shift_sem : forall m e l y, 0 <= m -> e <= fexp (Zdigits2 m + e) -> sem (shr_record_of_loc m l) y ->
  exists r y', shr_fexp 24 128 m e l = (r, fexp (Zdigits2 m + e)) /\ sem r y' /\ (y' * p2 (fexp (Zdigits2 m + e)) = y * p2 e)%R /\
    0 <= shr_m r < 2 ^ 24 /\ (fexp (Zdigits2 m + e) = -149 \/ 2 ^ 23 <= shr_m r).
Proof.
  intros m e l y Hm He S. set (k := fexp (Zdigits2 m + e)) in *. unfold shr_fexp, shr. fold k.
  assert (MR : forall n, 0 <= n -> k = e + n -> 0 <= m / 2 ^ n < 2 ^ 24 /\ (k = -149 \/ 2 ^ 23 <= m / 2 ^ n)).
  { intros n Hn Ek. pose proof (Z.pow_pos_nonneg 2 n ltac:(lia) Hn). split; [split; [apply Z.div_pos; lia|]|].
    - apply Z.div_lt_upper_bound; [lia|]. rewrite <- Z.pow_add_r by lia. pose proof (zdigits_gt m Hm).
      assert (Zdigits2 m <= n + 24) by (unfold k in Ek; rewrite fexp_def in Ek; lia).
      assert (2 ^ Zdigits2 m <= 2 ^ (n + 24)) by (apply Z.pow_le_mono_r; lia). lia.
    - destruct (Z.eq_dec k (-149)); auto. right. assert (E : Zdigits2 m = n + 24) by (unfold k in *; rewrite fexp_def in *; lia).
      assert (m <> 0) by (intros ->; cbn in E; lia). pose proof (zdigits_le m ltac:(lia)) as D. rewrite E in D.
      replace (n + 24 - 1) with (23 + n) in D by lia. rewrite Z.pow_add_r in D by lia. apply Z.div_le_lower_bound; lia. }
  destruct (k - e) as [|n|n] eqn:E.
  - exists (shr_record_of_loc m l), y. destruct (MR 0 ltac:(lia) ltac:(lia)) as (M1 & M2). rewrite Z.pow_0_r, Z.div_1_r in *. rewrite rec_m.
    replace e with k by lia. repeat split; auto; lia.
  - exists (iter_pos shr_1 n (shr_record_of_loc m l)), (y * p2 (- Zpos n))%R. destruct (MR (Zpos n) ltac:(lia) ltac:(lia)) as (M1 & M2).
    rewrite shr_iter_m by (rewrite rec_m; auto). rewrite rec_m. split; [f_equal; lia|].
    split; [apply shr_iter_sem; auto; now rewrite rec_m|]. split; [|auto]. replace k with (e + Zpos n) by lia. rewrite p2_add.
    rewrite Rmult_assoc, (Rmult_comm (p2 e)), <- (Rmult_assoc (p2 _)), p2_inv. ring.
  - lia.
Qed.
Lemma rne_sem : forall r y, sem r y -> let m := round_nearest_even (shr_m r) (loc_of_shr_record r) in
  shr_m r <= m <= shr_m r + 1 /\ (Rabs (IZR m - y) <= / 2)%R.
Proof.
  intros [m [] []] y S; unfold sem in S; cbn [shr_m shr_r shr_s loc_of_shr_record round_nearest_even] in *.
  - split; [lia|]. rewrite plus_IZR. apply Rabs_le. lra.
  - destruct (Z.even m); (split; [lia|]); rewrite ?plus_IZR; apply Rabs_le; lra.
  - split; [lia|]. apply Rabs_le. lra.
  - split; [lia|]. apply Rabs_le. lra.
Qed.

(** ** values *)
Definition u : R := p2 (-24).
Definition eta : R := p2 (-150).
(** [r] is [x] rounded *)
Definition near (x : R) (r : b32) : Prop :=
  bok r /\
  (bfin r = true /\ (Rabs (bval r - x) <= u * Rabs x + eta)%R \/
   exists s, r = S754_infinity s /\ (p2 127 <= bsgn s * x)%R) /\
  ((0 <= x)%R -> (0 <= bval r)%R) /\ ((x <= 0)%R -> (bval r <= 0)%R) /\
  (forall z g, Z.abs z < 2 ^ 24 -> -149 <= g -> x = (IZR z * p2 g)%R -> bfin r = true -> bval r = x).

Lemma bsgn_abs : forall s x, Rabs (bsgn s * x) = Rabs x.
Proof. intros [] x; unfold bsgn; [replace (-1 * x)%R with (- x)%R by ring; apply Rabs_Ropp|now rewrite Rmult_1_l]. Qed.

Lemma canonical_ok : forall s m e, e <= 104 -> fexp (Zpos (digits2_pos m) + e) = e -> bok (S754_finite s m e).
Proof.
  intros s m e L C. unfold bok, valid_binary, bounded, canonical_mantissa. rewrite C. apply andb_true_iff. split; [apply Zeq_is_eq_bool; reflexivity|].
  apply Zle_imp_le_bool. lia.
Qed.

Lemma and_assoc_r : forall A B C : Prop, A /\ B /\ C <-> (A /\ B) /\ C. Proof. tauto. Qed.
Lemma round_aux_near : forall s m e l y, 0 <= m -> e <= fexp (Zdigits2 m + e) -> sem (shr_record_of_loc m l) y ->
  near (bsgn s * (y * p2 e)) (binary_round_aux 24 128 s m e l).
Proof.
  intros s m e l y Hm He S. destruct (shift_sem m e l y Hm He S) as (r & y' & E1 & S1 & V & M & N). unfold binary_round_aux. rewrite E1.
  set (k := fexp (Zdigits2 m + e)) in *. assert (Hk : -149 <= k) by (unfold k; rewrite fexp_def; lia). clearbody k.
  destruct (rne_sem r y' S1) as (R1 & R2). set (mr := round_nearest_even (shr_m r) (loc_of_shr_record r)) in *. clearbody mr.
  pose proof (sem_bounds _ _ S1) as SB. rewrite <- V. pose proof (p2_pos k) as Pk.
  assert (Y0 : (0 <= y')%R) by (assert (0 <= IZR (shr_m r))%R by (apply IZR_le; lia); lra).
  assert (ERR : (Rabs (IZR mr * p2 k - y' * p2 k) <= u * (y' * p2 k) + eta)%R).
  { rewrite <- Rmult_minus_distr_r, Rabs_mult, (Rabs_pos_eq (p2 k)) by lra. destruct N as [->|N].
    - unfold u, eta. replace (-150) with (-(1) + -149) by lia. rewrite (p2_add (-(1)) (-149)).
      assert (p2 (- (1)) = / 2)%R as ->. { pose proof (p2_inv 1) as K. change (p2 1) with (powerRZ 2 1) in K. rewrite powerRZ_1 in K. lra. }
      pose proof (p2_pos (-24)). assert (0 <= p2 (-24) * (y' * p2 (-149)))%R by (apply Rmult_le_pos; [lra|apply Rmult_le_pos; lra]). pose proof (p2_pos (-149)).
      apply Rle_trans with (/ 2 * p2 (-149))%R; [apply Rmult_le_compat_r; lra|lra].
    - assert (B : (p2 23 <= y')%R). { rewrite p2_Z by lia. apply IZR_le in N. lra. }
      assert (p2 23 * u = / 2)%R. { unfold u. rewrite <- p2_add. pose proof (p2_inv 1) as K. change (p2 1) with (powerRZ 2 1) in K. rewrite powerRZ_1 in K. change (23 + -24) with (- (1)). lra. }
      pose proof (p2_pos (-150)). fold eta in *. assert (U : (0 < u)%R) by apply p2_pos.
      assert (H2 : (/ 2 <= u * y')%R) by (rewrite <- H; rewrite (Rmult_comm u); apply Rmult_le_compat_r; lra).
      apply Rle_trans with (u * y' * p2 k)%R; [apply Rmult_le_compat_r; lra|]. rewrite Rmult_assoc. lra. }
  (* the second shift *)
  assert (F : exists m2 e2, shr_fexp 24 128 mr k loc_Exact = ({| shr_m := m2; shr_r := false; shr_s := false |}, e2) /\
     (IZR m2 * p2 e2 = IZR mr * p2 k)%R /\ 0 <= m2 /\ (m2 = 0 -> mr = 0) /\ (0 < m2 -> fexp (Zdigits2 m2 + e2) = e2) /\ (104 < e2 -> (p2 127 <= y' * p2 k)%R)).
  { unfold shr_fexp, shr. cbn [shr_record_of_loc]. destruct (Z.eq_dec mr (2 ^ 24)) as [->|NE].
    - change (Zdigits2 (2 ^ 24)) with 25. rewrite fexp_def. replace (Z.max (25 + k - 24) (-149) - k) with 1 by lia.
      exists (2 ^ 23), (k + 1). split; [reflexivity|]. split; [rewrite p2_succ; change (2 ^ 24) with (2 * 2 ^ 23); rewrite mult_IZR; ring|].
      split; [lia|]. split; [intros X; discriminate X|]. split; [intros _; change (Zdigits2 (2 ^ 23)) with 24; rewrite fexp_def; lia|].
      intros L. assert (p2 104 <= p2 k)%R by (apply p2_le; lia). assert (p2 23 <= y')%R by (rewrite p2_Z by lia; destruct N as [N|N]; [lia|apply IZR_le in N; lra]).
      replace 127 with (23 + 104) by lia. rewrite p2_add. pose proof (p2_pos 23). pose proof (p2_pos 104). apply Rmult_le_compat; lra.
    - assert (LM : 0 <= mr < 2 ^ 24) by lia. pose proof (zdigits_bound mr 24 ltac:(lia) ltac:(lia) ltac:(lia)) as D.
      assert (X : fexp (Zdigits2 mr + k) - k <= 0) by (rewrite fexp_def; lia).
      exists mr, k. split; [destruct (fexp (Zdigits2 mr + k) - k); auto; lia|]. split; [reflexivity|]. split; [lia|]. split; [auto|]. split.
      + intros P. destruct N as [->|N]; [rewrite fexp_def; lia|]. pose proof (zdigits_ge mr 24 ltac:(lia) ltac:(cbn; lia)). rewrite fexp_def. lia.
      + intros L. destruct N as [N|N]; [lia|]. assert (p2 104 <= p2 k)%R by (apply p2_le; lia).
        assert (p2 23 <= y')%R by (rewrite p2_Z by lia; apply IZR_le in N; lra).
        replace 127 with (23 + 104) by lia. rewrite p2_add. pose proof (p2_pos 23). pose proof (p2_pos 104). apply Rmult_le_compat; lra. }
  destruct F as (m2 & e2 & E2 & V2 & P2 & Z2 & C2 & I2). rewrite E2. cbn [shr_m].
  assert (X0 : (0 <= y' * p2 k)%R) by (apply Rmult_le_pos; lra).
  assert (M0 : (0 <= IZR mr)%R) by (apply IZR_le; lia).
  assert (SG : y' = 0%R -> mr = 0). { intros Z. rewrite Z, Rminus_0_r, Rabs_pos_eq in R2 by auto. assert (mr < 1) by (apply lt_IZR; lra). lia. }
  assert (EX : forall z g, Z.abs z < 2 ^ 24 -> -149 <= g -> (bsgn s * (y' * p2 k))%R = (IZR z * p2 g)%R -> IZR mr = y').
  { intros z g Hz Hg E. assert (A : (y' * p2 k = IZR (Z.abs z) * p2 g)%R).
    { rewrite abs_IZR. pose proof (p2_pos g). rewrite <- (Rabs_pos_eq (p2 g)) by lra. rewrite <- Rabs_mult, <- E, bsgn_abs, Rabs_pos_eq; auto. }
    assert (K : k <= g).
    { destruct N as [->|N]; [auto|]. assert (L1 : (p2 (23 + k) <= y' * p2 k)%R).
      { rewrite p2_add. apply Rmult_le_compat_r; [lra|]. rewrite p2_Z by lia. apply IZR_le in N. lra. }
      assert (L2 : (IZR (Z.abs z) * p2 g < p2 (24 + g))%R).
      { rewrite p2_add. apply Rmult_lt_compat_r; [apply p2_pos|]. rewrite p2_Z by lia. now apply IZR_lt. }
      destruct (Z.le_gt_cases k g); auto. pose proof (p2_le (24 + g) (23 + k) ltac:(lia)). lra. }
    assert (Y : y' = IZR (Z.abs z * 2 ^ (g - k))).
    { rewrite mult_IZR, <- p2_Z by lia. apply Rmult_eq_reg_r with (p2 k); [|lra]. rewrite A, Rmult_assoc, <- p2_add.
      now replace (g - k + k) with g by lia. }
    rewrite Y in R2 |- *. f_equal. rewrite <- minus_IZR, <- abs_IZR in R2. assert (Z.abs (mr - Z.abs z * 2 ^ (g - k)) < 1) by (apply lt_IZR; lra). lia. }
  destruct m2 as [|p|p]; [| |lia].
  - split; [reflexivity|]. split; [left|cbn [bval]; split; [intros; lra|split; [intros; lra|]]].
    2:{ intros z g Hz Hg E _. specialize (EX z g Hz Hg E). rewrite (Z2 eq_refl) in EX. rewrite <- EX. ring. } split; [reflexivity|]. cbn [bval].
    replace (0 - bsgn s * (y' * p2 k))%R with (bsgn s * (IZR mr * p2 k - y' * p2 k))%R by (rewrite (Z2 eq_refl); ring). rewrite !bsgn_abs, (Rabs_pos_eq (y' * p2 k)) by lra. exact ERR.
  - destruct (Zle_bool e2 (128 - 24)) eqn:LE.
    + apply Zle_bool_imp_le in LE. split; [apply canonical_ok; [lia|apply (C2 ltac:(lia))]|].
      assert (BV : bval (S754_finite s p e2) = (bsgn s * (IZR mr * p2 k))%R) by (cbn [bval]; now rewrite V2).
      split; [left; split; [reflexivity|]|].
      * rewrite BV, <- Rmult_minus_distr_l, !bsgn_abs, (Rabs_pos_eq (y' * p2 k)) by lra. exact ERR.
      * rewrite BV, and_assoc_r. split; [|intros z g Hz Hg E _; now rewrite (EX z g Hz Hg E)].
        assert (0 <= IZR mr * p2 k)%R by (apply Rmult_le_pos; lra).
        destruct (Req_dec y' 0) as [Z|Z]; [rewrite (SG Z); destruct s; unfold bsgn; split; intros; lra|].
        assert (0 < y' * p2 k)%R by (apply Rmult_lt_0_compat; lra). destruct s; unfold bsgn; split; intros; lra.
    + split; [reflexivity|]. split; [right|cbn [bval bfin]; split; [intros; lra|split; [intros; lra|discriminate]]]. exists s. split; [reflexivity|].
      rewrite <- Rmult_assoc. replace (bsgn s * bsgn s)%R with 1%R by (destruct s; unfold bsgn; ring). rewrite Rmult_1_l. apply I2.
      destruct (Z.le_gt_cases e2 104) as [K|K]; [|lia]. apply Zle_imp_le_bool in K. change (128 - 24) with 104 in LE. congruence.
Qed.

(** ** the operations *)
Lemma zdigits_shl : forall p d, Zdigits2 (2 ^ Zpos d * Zpos p) = Zpos (digits2_pos p) + Zpos d.
Proof.
  intros p d. pose proof (digits_gt p). pose proof (digits_le p). pose proof (Z.pow_pos_nonneg 2 (Zpos d) ltac:(lia) ltac:(lia)).
  apply Z.le_antisymm.
  - apply zdigits_bound; [nia|lia|]. rewrite Z.pow_add_r by lia. nia.
  - apply zdigits_ge; [lia|]. replace (Zpos (digits2_pos p) + Zpos d - 1) with (Zpos d + (Zpos (digits2_pos p) - 1)) by lia. rewrite Z.pow_add_r by lia. nia.
Qed.
Lemma shift_pos_val : forall d m, Zpos (shift_pos d m) = 2 ^ Zpos d * Zpos m.
Proof. intros. rewrite shift_pos_correct. rewrite Z.pow_pos_fold. reflexivity. Qed.
Lemma exact_sem : forall m, sem (shr_record_of_loc m loc_Exact) (IZR m).
Proof. reflexivity. Qed.
Lemma round_near : forall s m e, near (bsgn s * (IZR (Zpos m) * p2 e)) (binary_round 24 128 s m e).
Proof.
  intros s m e. unfold binary_round, shl_align. set (k := fexp (Zpos (digits2_pos m) + e)).
  destruct (k - e) as [|d|d] eqn:E; try (apply round_aux_near; [lia| |apply exact_sem]; change (Zdigits2 (Zpos m)) with (Zpos (digits2_pos m)); fold k; lia).
  replace (IZR (Zpos m) * p2 e)%R with (IZR (Zpos (shift_pos d m)) * p2 k)%R.
  - apply round_aux_near; [lia| |apply exact_sem]. rewrite shift_pos_val, zdigits_shl.
    replace (Zpos (digits2_pos m) + Zpos d + k) with (Zpos (digits2_pos m) + e) by lia. fold k. lia.
  - rewrite shift_pos_val, mult_IZR, <- p2_Z by lia. replace e with (Zpos d + k) by lia. rewrite p2_add. ring.
Qed.
Lemma zero_near : forall s, near 0 (S754_zero s).
Proof.
  intros s. split; [reflexivity|]. split; [left|cbn; split; [intros; lra|split; [intros; lra|auto]]]. split; [reflexivity|]. cbn [bval].
  rewrite Rminus_0_r, Rabs_R0. pose proof (p2_pos (-150)). fold eta in *. lra.
Qed.
Lemma near_self : forall x, bok x -> bfin x = true -> near (bval x) x.
Proof.
  intros x V H. split; auto. split; [left; split; auto|split; [tauto|split; [tauto|auto]]]. rewrite Rminus_eq_0, Rabs_R0. pose proof (p2_pos (-150)). fold eta in *.
  pose proof (p2_pos (-24)). fold u in *. pose proof (Rabs_pos (bval x)). assert (0 <= u * Rabs (bval x))%R by (apply Rmult_le_pos; lra). lra.
Qed.
Lemma normalize_near : forall z e s, near (IZR z * p2 e) (binary_normalize 24 128 z e s).
Proof.
  intros [|m|m] e s; cbn [binary_normalize].
  - rewrite Rmult_0_l. apply zero_near.
  - pose proof (round_near false m e) as K. cbn [bsgn] in K. now rewrite Rmult_1_l in K.
  - pose proof (round_near true m e) as K. cbn [bsgn] in K. change (Zneg m) with (- Zpos m). rewrite opp_IZR.
    replace (- IZR (Zpos m) * p2 e)%R with (-1 * (IZR (Zpos m) * p2 e))%R by ring. exact K.
Qed.
Lemma of_Z_near : forall z, near (IZR z) (b_of_Z z).
Proof. intros z. pose proof (normalize_near z 0 false) as K. change (p2 0) with 1%R in K. now rewrite Rmult_1_r in K. Qed.

Lemma shl_align_val : forall m e k, k <= e -> (IZR (Zpos (fst (shl_align m e k))) * p2 k = IZR (Zpos m) * p2 e)%R.
Proof.
  intros m e k H. unfold shl_align. destruct (k - e) as [|d|d] eqn:E; cbn [fst].
  - now replace e with k by lia.
  - lia.
  - rewrite shift_pos_val, mult_IZR, <- p2_Z by lia. replace e with (Zpos d + k) by lia. rewrite p2_add. ring.
Qed.
Lemma cond_opp_val : forall s z, IZR (cond_Zopp s z) = (bsgn s * IZR z)%R.
Proof. intros [] z; unfold bsgn; cbn [cond_Zopp]; [rewrite opp_IZR|]; ring. Qed.
Lemma opp_val : forall x, bval (SFopp x) = (- bval x)%R.
Proof. intros [s|s| |s m e]; cbn [SFopp bval]; try ring. destruct s; unfold bsgn; cbn; ring. Qed.
Lemma opp_ok : forall x, bok x -> bok (SFopp x). Proof. intros [s|s| |s m e]; auto. Qed.
Lemma opp_fin : forall x, bfin (SFopp x) = bfin x. Proof. intros [s|s| |s m e]; auto. Qed.

Lemma add_near : forall a b, bok a -> bok b -> bfin a = true -> bfin b = true -> near (bval a + bval b) (b_add a b).
Proof.
  intros a b Va Vb Fa Fb. destruct a as [s|s| |s m e]; try discriminate; destruct b as [t|t| |t n f]; try discriminate.
  - cbn [bval]. rewrite Rplus_0_r. unfold b_add. cbn [SFadd]. destruct (Bool.eqb s t); apply zero_near.
  - change (bval (S754_zero s)) with 0%R. rewrite Rplus_0_l. apply near_self; auto.
  - change (bval (S754_zero t)) with 0%R. rewrite Rplus_0_r. apply near_self; auto.
  - unfold b_add. cbn [SFadd bval]. set (k := Z.min e f).
    replace (bsgn s * (IZR (Zpos m) * p2 e) + bsgn t * (IZR (Zpos n) * p2 f))%R with
      (IZR (cond_Zopp s (Zpos (fst (shl_align m e k))) + cond_Zopp t (Zpos (fst (shl_align n f k)))) * p2 k)%R; [apply normalize_near|].
    rewrite plus_IZR, !cond_opp_val, Rmult_plus_distr_r, !Rmult_assoc, !shl_align_val by (unfold k; lia). reflexivity.
Qed.
Lemma sub_near : forall a b, bok a -> bok b -> bfin a = true -> bfin b = true -> near (bval a - bval b) (b_sub a b).
Proof.
  intros a b Va Vb Fa Fb. destruct a as [s|s| |s m e]; try discriminate; destruct b as [t|t| |t n f]; try discriminate.
  - cbn [bval]. rewrite Rminus_0_r. unfold b_sub. cbn [SFsub]. destruct (Bool.eqb s (negb t)); apply zero_near.
  - change (bval (S754_zero s)) with 0%R. rewrite Rminus_0_l. rewrite <- opp_val. apply near_self; auto.
  - change (bval (S754_zero t)) with 0%R. rewrite Rminus_0_r. apply near_self; auto.
  - unfold b_sub. cbn [SFsub bval]. set (k := Z.min e f).
    replace (bsgn s * (IZR (Zpos m) * p2 e) - bsgn t * (IZR (Zpos n) * p2 f))%R with
      (IZR (cond_Zopp s (Zpos (fst (shl_align m e k))) - cond_Zopp t (Zpos (fst (shl_align n f k)))) * p2 k)%R; [apply normalize_near|].
    rewrite minus_IZR, !cond_opp_val, Rmult_minus_distr_r, !Rmult_assoc, !shl_align_val by (unfold k; lia). reflexivity.
Qed.

Lemma ok_inv : forall s m e, bok (S754_finite s m e) -> fexp (Zpos (digits2_pos m) + e) = e /\ e <= 104.
Proof.
  intros s m e H. unfold bok, valid_binary, bounded, canonical_mantissa in H. apply andb_true_iff in H. destruct H as (H1 & H2).
  split; [now apply Zeq_bool_eq|]. apply Zle_bool_imp_le in H2. lia.
Qed.
Lemma digits_mul : forall m n, Zpos (digits2_pos m) + Zpos (digits2_pos n) - 1 <= Zdigits2 (Zpos (m * n)).
Proof.
  intros m n. apply zdigits_ge; [lia|]. rewrite Pos2Z.inj_mul. pose proof (digits_le m). pose proof (digits_le n).
  replace (Zpos (digits2_pos m) + Zpos (digits2_pos n) - 1 - 1) with ((Zpos (digits2_pos m) - 1) + (Zpos (digits2_pos n) - 1)) by lia.
  rewrite Z.pow_add_r by lia. apply Z.mul_le_mono_nonneg; auto; apply Z.pow_nonneg; lia.
Qed.
Lemma bsgn_xor : forall s t, bsgn (xorb s t) = (bsgn s * bsgn t)%R.
Proof. intros [] []; unfold bsgn; cbn; ring. Qed.
Lemma mul_near : forall a b, bok a -> bok b -> bfin a = true -> bfin b = true -> near (bval a * bval b) (b_mul a b).
Proof.
  intros a b Va Vb Fa Fb. destruct a as [s|s| |s m e]; try discriminate; destruct b as [t|t| |t n f]; try discriminate;
    try (cbn [bval]; rewrite ?Rmult_0_l, ?Rmult_0_r; apply zero_near).
  unfold b_mul. cbn [SFmul bval]. destruct (ok_inv _ _ _ Va) as (Ca & _), (ok_inv _ _ _ Vb) as (Cb & _). rewrite fexp_def in *.
  replace (bsgn s * (IZR (Zpos m) * p2 e) * (bsgn t * (IZR (Zpos n) * p2 f)))%R with (bsgn (xorb s t) * (IZR (Zpos (m * n)) * p2 (e + f)))%R.
  - apply round_aux_near; [lia| |apply exact_sem]. pose proof (digits_mul m n). rewrite fexp_def. lia.
  - rewrite bsgn_xor, Pos2Z.inj_mul, mult_IZR, p2_add. ring.
Qed.

Lemma new_location_sem : forall q r m, 0 <= r < m -> sem (shr_record_of_loc q (new_location m r)) (IZR q + IZR r / IZR m).
Proof.
  intros q r m H. assert (Hm : (0 < IZR m)%R) by (apply IZR_lt; lia). set (y := (IZR r / IZR m)%R).
  assert (Y : (y * IZR m = IZR r)%R) by (unfold y; field; lra). assert (R1 : (IZR r < IZR m)%R) by (apply IZR_lt; lia).
  assert (G : forall c, r <> 0 -> (c = Lt -> 2 * r < m) -> (c = Eq -> 2 * r = m) -> (c = Gt -> m < 2 * r) -> sem (shr_record_of_loc q (loc_Inexact c)) (IZR q + y)).
  { intros c N L E U. assert (0 < IZR r)%R by (apply IZR_lt; lia). assert (0 < y)%R by (unfold y; apply Rdiv_lt_0_compat; lra).
    destruct c; unfold sem; cbn [shr_record_of_loc shr_m shr_r shr_s].
    - specialize (E eq_refl). apply (f_equal IZR) in E. rewrite mult_IZR in E. f_equal. apply Rmult_eq_reg_r with (IZR m); lra.
    - specialize (L eq_refl). apply IZR_lt in L. rewrite mult_IZR in L. assert (y < / 2)%R by (apply Rmult_lt_reg_r with (IZR m); lra). lra.
    - specialize (U eq_refl). apply IZR_lt in U. rewrite mult_IZR in U. assert (/ 2 < y)%R by (apply Rmult_lt_reg_r with (IZR m); lra).
      assert (y < 1)%R by (apply Rmult_lt_reg_r with (IZR m); lra). lra. }
  unfold new_location, new_location_even, new_location_odd. destruct (Z.even m) eqn:EV; destruct (Zeq_bool r 0) eqn:Z0.
  1,3: apply Zeq_bool_eq in Z0; subst r; unfold y, sem; cbn [shr_record_of_loc shr_m shr_r shr_s]; unfold Rdiv; ring.
  - apply Zeq_bool_neq in Z0. destruct (Z.compare_spec (2 * r) m) as [C|C|C]; (apply G; [auto| | |]; intros X; try discriminate; lia).
  - apply Zeq_bool_neq in Z0. assert (OD : exists k, m = 2 * k + 1). { apply Z.odd_spec. now rewrite <- Z.negb_even, EV. } destruct OD as (k & ->).
    destruct (Z.compare_spec (2 * r + 1) (2 * k + 1)) as [C|C|C]; (apply G; [auto| | |]; intros X; try discriminate; lia).
Qed.
Lemma div_core_near : forall s m e n f, 
  let '(q, k, l) := SFdiv_core_binary 24 128 (Zpos m) e (Zpos n) f in
  near (bsgn s * (IZR (Zpos m) * p2 e / (IZR (Zpos n) * p2 f))) (binary_round_aux 24 128 s q k l).
Proof.
  intros s m e n f. unfold SFdiv_core_binary. change (Zdigits2 (Zpos m)) with (Zpos (digits2_pos m)). change (Zdigits2 (Zpos n)) with (Zpos (digits2_pos n)).
  set (D := Zpos (digits2_pos m) + e - (Zpos (digits2_pos n) + f)). set (k := Z.min (fexp D) (e - f)).
  set (w := e - f - k). assert (Hw : 0 <= w) by (unfold w, k; lia).
  assert (Em : match w with Zpos _ => Z.shiftl (Zpos m) w | 0 => Zpos m | Zneg _ => 0 end = Zpos m * 2 ^ w).
  { destruct w; [rewrite Z.pow_0_r; lia|rewrite Z.shiftl_mul_pow2 by lia; reflexivity|lia]. }
  rewrite Em. set (m' := Zpos m * 2 ^ w). assert (P2w : 0 < 2 ^ w) by (apply Z.pow_pos_nonneg; lia). assert (Hm' : 0 < m') by (unfold m'; nia).
  pose proof (Z_div_mod m' (Zpos n) ltac:(lia)) as DM. destruct (Z.div_eucl m' (Zpos n)) as (q, r). destruct DM as (DM & Hr).
  assert (Hq : 0 <= q) by nia.
  replace (IZR (Zpos m) * p2 e / (IZR (Zpos n) * p2 f))%R with ((IZR q + IZR r / IZR (Zpos n)) * p2 k)%R.
  - apply round_aux_near; [auto| |now apply new_location_sem]. rewrite fexp_def.
    assert (k <= Z.max (D - 24) (-149)) by (unfold k; rewrite fexp_def; lia).
    enough (D <= Zdigits2 q + k \/ k <= -149) by (destruct H0; lia).
    destruct (Z.le_gt_cases k (-149)); [auto|left].
    (* q >= 2^(dm + w - dn - 1) - so digits q >= dm + w - dn *)
    destruct (Z.le_gt_cases (Zpos (digits2_pos m) + w - Zpos (digits2_pos n)) 0) as [L|L].
    + pose proof (zdigits_nn q). unfold w, D in *. lia.
    + assert (2 ^ (Zpos (digits2_pos m) + w - Zpos (digits2_pos n) - 1) <= q).
      { pose proof (digits_le m). pose proof (digits_gt n). apply Z.lt_succ_r.
        apply Z.mul_lt_mono_pos_l with (p := Zpos n); [lia|].
        apply Z.le_lt_trans with (2 ^ Zpos (digits2_pos n) * 2 ^ (Zpos (digits2_pos m) + w - Zpos (digits2_pos n) - 1)).
        - apply Z.mul_le_mono_nonneg_r; [apply Z.pow_nonneg; lia|lia].
        - rewrite <- Z.pow_add_r by lia. replace (Zpos (digits2_pos n) + (Zpos (digits2_pos m) + w - Zpos (digits2_pos n) - 1)) with ((Zpos (digits2_pos m) - 1) + w) by lia.
          rewrite Z.pow_add_r by lia. apply Z.le_lt_trans with m'; [unfold m'; nia|nia]. }
      pose proof (zdigits_ge q _ L H1). unfold w, D in *. lia.
  - assert (Hn : (0 < IZR (Zpos n))%R) by (apply IZR_lt; lia). pose proof (p2_pos f). pose proof (p2_pos k). 
    assert (X : (IZR (Zpos m) * p2 w = IZR (Zpos n) * IZR q + IZR r)%R).
    { rewrite p2_Z by lia. rewrite <- !mult_IZR, <- plus_IZR. f_equal. exact DM. }
    replace e with (w + k + f) by (unfold w; lia). rewrite !p2_add.
    replace (IZR (Zpos m) * (p2 w * p2 k * p2 f))%R with ((IZR (Zpos m) * p2 w) * (p2 k * p2 f))%R by ring. rewrite X. field. lra.
Qed.
Lemma div_near : forall a b, bfin a = true -> bfin b = true -> bval b <> 0%R -> near (bval a / bval b) (b_div a b).
Proof.
  intros a b Fa Fb NZ. destruct b as [t|t| |t n f]; try discriminate; [cbn in NZ; lra|].
  destruct a as [s|s| |s m e]; try discriminate.
  - unfold Rdiv. change (bval (S754_zero s)) with 0%R. rewrite Rmult_0_l. apply zero_near.
  - unfold b_div. cbn [SFdiv bval]. pose proof (div_core_near (xorb s t) m e n f) as K. destruct (SFdiv_core_binary 24 128 (Zpos m) e (Zpos n) f) as ((q, k), l).
    replace (bsgn s * (IZR (Zpos m) * p2 e) / (bsgn t * (IZR (Zpos n) * p2 f)))%R with (bsgn (xorb s t) * (IZR (Zpos m) * p2 e / (IZR (Zpos n) * p2 f)))%R; [exact K|].
    rewrite bsgn_xor. assert (0 < IZR (Zpos n))%R by (apply IZR_lt; lia). pose proof (p2_pos f). destruct t; unfold bsgn; field; lra.
Qed.

(** ** comparisons *)
Lemma ok_range : forall m e, fexp (Zpos (digits2_pos m) + e) = e -> (0 < IZR (Zpos m) * p2 e < p2 (24 + e))%R /\ (-149 < e -> (p2 (23 + e) <= IZR (Zpos m) * p2 e)%R).
Proof.
  intros m e C. rewrite fexp_def in C. pose proof (p2_pos e). pose proof (digits_gt m) as G. pose proof (digits_le m) as L.
  assert (B : Zpos m < 2 ^ 24). { assert (2 ^ Zpos (digits2_pos m) <= 2 ^ 24) by (apply Z.pow_le_mono_r; lia). lia. }
  split; [split|].
  - apply Rmult_lt_0_compat; auto. apply IZR_lt. lia.
  - rewrite p2_add. apply Rmult_lt_compat_r; auto. rewrite p2_Z by lia. now apply IZR_lt.
  - intros E. rewrite p2_add. apply Rmult_le_compat_r; [lra|]. rewrite p2_Z by lia. apply IZR_le.
    replace (Zpos (digits2_pos m) - 1) with 23 in L by lia. exact L.
Qed.
Lemma mag_lt : forall m e n f, fexp (Zpos (digits2_pos m) + e) = e -> fexp (Zpos (digits2_pos n) + f) = f -> e < f ->
  (IZR (Zpos m) * p2 e < IZR (Zpos n) * p2 f)%R.
Proof.
  intros m e n f C D L. destruct (ok_range m e C) as ((_ & U) & _). destruct (ok_range n f D) as (_ & W).
  assert (-149 <= e) by (rewrite fexp_def in C; lia). specialize (W ltac:(lia)). pose proof (p2_le (24 + e) (23 + f) ltac:(lia)). lra.
Qed.
Lemma compare_val : forall a b, bok a -> bok b -> bfin a = true -> bfin b = true ->
  match SFcompare a b with Some Lt => (bval a < bval b)%R | Some Eq => bval a = bval b | Some Gt => (bval b < bval a)%R | None => False end.
Proof.
  intros a b Va Vb Fa Fb. destruct a as [s|s| |s m e]; try discriminate; destruct b as [t|t| |t n f]; try discriminate; cbn [SFcompare].
  - reflexivity.
  - destruct (ok_inv _ _ _ Vb) as (C & _). destruct (ok_range n f C) as ((P & _) & _). destruct t; cbn [bval bsgn]; lra.
  - destruct (ok_inv _ _ _ Va) as (C & _). destruct (ok_range m e C) as ((P & _) & _). destruct s; cbn [bval bsgn]; lra.
  - destruct (ok_inv _ _ _ Va) as (C & _), (ok_inv _ _ _ Vb) as (D & _). destruct (ok_range m e C) as ((P & _) & _), (ok_range n f D) as ((Q & _) & _).
    cbn [bval]. pose proof (p2_pos f) as Pf. destruct s, t; unfold bsgn; try lra.
    + destruct (Z.compare_spec e f) as [->|L|L].
      * change (Pcompare m n Eq) with (Pos.compare m n). destruct (Pos.compare_spec m n) as [->|K|K]; cbn [CompOpp]; auto;
          assert (IZR (Zpos m) <> IZR (Zpos n)) by (intros X; apply eq_IZR in X; lia).
        -- assert (IZR (Zpos m) < IZR (Zpos n))%R by (apply IZR_lt; lia). nra.
        -- assert (IZR (Zpos n) < IZR (Zpos m))%R by (apply IZR_lt; lia). nra.
      * pose proof (mag_lt m e n f C D L). lra.
      * pose proof (mag_lt n f m e D C L). lra.
    + destruct (Z.compare_spec e f) as [->|L|L].
      * change (Pcompare m n Eq) with (Pos.compare m n). destruct (Pos.compare_spec m n) as [->|K|K]; auto.
        -- assert (IZR (Zpos m) < IZR (Zpos n))%R by (apply IZR_lt; lia). nra.
        -- assert (IZR (Zpos n) < IZR (Zpos m))%R by (apply IZR_lt; lia). nra.
      * pose proof (mag_lt m e n f C D L). lra.
      * pose proof (mag_lt n f m e D C L). lra.
Qed.
Lemma ltb_val : forall a b, bok a -> bok b -> bfin a = true -> bfin b = true -> SFltb a b = true <-> (bval a < bval b)%R.
Proof.
  intros a b Va Vb Fa Fb. pose proof (compare_val a b Va Vb Fa Fb) as K. unfold SFltb. destruct (SFcompare a b) as [[]|]; try tauto;
    (split; [discriminate|intros; lra]).
Qed.
Lemma leb_val : forall a b, bok a -> bok b -> bfin a = true -> bfin b = true -> SFleb a b = true <-> (bval a <= bval b)%R.
Proof.
  intros a b Va Vb Fa Fb. pose proof (compare_val a b Va Vb Fa Fb) as K. unfold SFleb. destruct (SFcompare a b) as [[]|]; try tauto;
    (split; [try discriminate; intros; lra|try reflexivity; intros; lra]).
Qed.
Lemma eqb_val : forall a b, bok a -> bok b -> bfin a = true -> bfin b = true -> SFeqb a b = true <-> bval a = bval b.
Proof.
  intros a b Va Vb Fa Fb. pose proof (compare_val a b Va Vb Fa Fb) as K. unfold SFeqb. destruct (SFcompare a b) as [[]|]; try tauto;
    (split; [discriminate|intros; lra]).
Qed.
