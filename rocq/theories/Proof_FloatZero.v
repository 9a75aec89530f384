(** Negative zeros in binary32 sums: a sum is the negative zero only if both terms are. *)
From Coq Require Import ZArith Bool Lia.
From Coq Require Import Floats.SpecFloat.
From Verif Require Import Base FloatOps FloatB32.
Open Scope Z_scope.

Local Notation fexp := (fexp 24 128).
Lemma emin32 : emin 24 128 = -149. Proof. reflexivity. Qed.
Lemma fexp_ge : forall e, -149 <= fexp e.
Proof. intros e. unfold SpecFloat.fexp. rewrite emin32. lia. Qed.

Lemma shr_1_m : forall r, 0 <= shr_m r -> shr_m (shr_1 r) = shr_m r / 2.
Proof.
  intros [m b s] H. simpl in H. destruct m as [|p|p]; [reflexivity| |lia].
  rewrite <- Z.div2_div. destruct p; reflexivity.
Qed.

Lemma shr_iter_m : forall p r, 0 <= shr_m r -> shr_m (iter_pos shr_1 p r) = shr_m r / 2 ^ Zpos p.
Proof.
  induction p as [p IH|p IH|]; intros r H; cbn [iter_pos].
  - assert (H1 : 0 <= shr_m (shr_1 r)) by (rewrite shr_1_m by auto; apply Z.div_pos; lia).
    assert (H2 : 0 <= shr_m (iter_pos shr_1 p (shr_1 r))) by (rewrite IH by auto; apply Z.div_pos; lia).
    rewrite IH, IH, shr_1_m by auto. rewrite !Z.div_div by lia. f_equal.
    replace (Zpos p~1) with (Zpos p + Zpos p + 1) by lia. rewrite !Z.pow_add_r by lia. ring.
  - assert (H2 : 0 <= shr_m (iter_pos shr_1 p r)) by (rewrite IH by auto; apply Z.div_pos; lia).
    rewrite IH, IH by auto. rewrite !Z.div_div by lia. f_equal.
    replace (Zpos p~0) with (Zpos p + Zpos p) by lia. rewrite !Z.pow_add_r by lia. ring.
  - rewrite shr_1_m by auto. reflexivity.
Qed.

Lemma digits_size : forall p, digits2_pos p = Pos.size p.
Proof. induction p; simpl; congruence. Qed.
Lemma digits_le : forall p, 2 ^ (Zpos (digits2_pos p) - 1) <= Zpos p.
Proof.
  intros p. rewrite digits_size. pose proof (Pos.size_le p) as H.
  assert (E : Zpos (2 ^ Pos.size p) = 2 ^ Zpos (Pos.size p)) by apply Pos2Z.inj_pow.
  assert (D : 2 ^ Zpos (Pos.size p) = 2 * 2 ^ (Zpos (Pos.size p) - 1)).
  { rewrite <- Z.pow_succ_r by lia. f_equal. lia. }
  lia.
Qed.

Lemma rec_m : forall m l, shr_m (shr_record_of_loc m l) = m.
Proof. intros m [|[]]; reflexivity. Qed.

(** the exponent after [shr_fexp] is at least the smallest one *)
Lemma shr_fexp_ge : forall m e l, -149 <= snd (shr_fexp 24 128 m e l).
Proof.
  intros m e l. unfold shr_fexp, shr. pose proof (fexp_ge (Zdigits2 m + e)) as H.
  destruct (fexp (Zdigits2 m + e) - e) eqn:E; simpl; lia.
Qed.

(** a positive mantissa with an exponent in range is not shifted down to zero *)
Lemma shr_fexp_pos : forall m e l, 0 < m -> -149 <= e -> 0 < shr_m (fst (shr_fexp 24 128 m e l)).
Proof.
  intros m e l Hm He. unfold shr_fexp, shr.
  destruct (fexp (Zdigits2 m + e) - e) as [|n|n] eqn:E; cbn [fst]; rewrite ?rec_m; auto.
  rewrite shr_iter_m by (rewrite rec_m; lia). rewrite rec_m.
  destruct m as [|p|p]; try lia. cbn [Zdigits2] in E.
  unfold SpecFloat.fexp in E. rewrite emin32 in E.
  pose proof (digits_le p) as D.
  assert (L : 2 ^ Zpos n <= Zpos p).
  { etransitivity; [|exact D]. apply Z.pow_le_mono_r; lia. }
  apply Z.div_str_pos. lia.
Qed.

Lemma round_ge : forall m l, m <= round_nearest_even m l.
Proof. intros m [|[]]; simpl; try lia. destruct (Z.even m); lia. Qed.

Definition efin (x : b32) : Prop := match x with S754_finite _ _ e => -149 <= e | _ => True end.
Definition nnz (x : b32) : Prop := x <> S754_zero true.

Lemma round_aux_efin : forall s m e l, efin (binary_round_aux 24 128 s m e l).
Proof.
  intros s m e l. unfold binary_round_aux.
  destruct (shr_fexp 24 128 m e l) as [r1 e1].
  set (m2 := round_nearest_even (shr_m r1) (loc_of_shr_record r1)).
  pose proof (shr_fexp_ge m2 e1 loc_Exact) as H.
  destruct (shr_fexp 24 128 m2 e1 loc_Exact) as [r2 e2]. simpl in H.
  destruct (shr_m r2) as [|q|q]; [exact I| |exact I]. destruct (Zle_bool e2 (128 - 24)); [exact H|exact I].
Qed.

Lemma round_aux_nz : forall s m e l, 0 < m -> -149 <= e -> forall t, binary_round_aux 24 128 s m e l <> S754_zero t.
Proof.
  intros s m e l Hm He t. unfold binary_round_aux.
  pose proof (shr_fexp_pos m e l Hm He) as P1. pose proof (shr_fexp_ge m e l) as G1.
  destruct (shr_fexp 24 128 m e l) as [r1 e1]. simpl in P1, G1.
  pose proof (round_ge (shr_m r1) (loc_of_shr_record r1)) as R.
  pose proof (shr_fexp_pos (round_nearest_even (shr_m r1) (loc_of_shr_record r1)) e1 loc_Exact ltac:(lia) G1) as P2.
  destruct (shr_fexp 24 128 (round_nearest_even (shr_m r1) (loc_of_shr_record r1)) e1 loc_Exact) as [r2 e2].
  simpl in P2. destruct (shr_m r2); try lia. destruct (Zle_bool e2 (128 - 24)); discriminate.
Qed.

Lemma round_efin : forall s m e, efin (binary_round 24 128 s m e).
Proof. intros. unfold binary_round. destruct (shl_align _ _ _). apply round_aux_efin. Qed.
Lemma round_nz : forall s m e, -149 <= e -> forall t, binary_round 24 128 s m e <> S754_zero t.
Proof.
  intros s m e He t. unfold binary_round, shl_align.
  pose proof (fexp_ge (Zpos (digits2_pos m) + e)) as G.
  destruct (fexp (Zpos (digits2_pos m) + e) - e); apply round_aux_nz; lia.
Qed.

Lemma add_efin : forall x y, efin x -> efin y -> efin (b_add x y).
Proof.
  intros x y Hx Hy. unfold b_add, SFadd. destruct x as [s|s| |s m e], y as [s'|s'| |s' m' e']; auto.
  - destruct (Bool.eqb s s'); simpl; auto.
  - destruct (Bool.eqb s s'); simpl; auto.
  - cbn zeta. unfold binary_normalize. destruct (_ + _); simpl; auto using round_efin.
Qed.
Lemma mul_efin : forall x y, efin (b_mul x y).
Proof. intros x y. unfold b_mul, SFmul. destruct x, y; simpl; auto using round_aux_efin. Qed.
Lemma opp_efin : forall x, efin x -> efin (SFopp x). Proof. intros []; auto. Qed.
Lemma abs_efin : forall x, efin x -> efin (SFabs x). Proof. intros []; auto. Qed.

Lemma add_nnz : forall x y, efin x -> efin y -> nnz x -> nnz (b_add x y).
Proof.
  intros x y Hx Hy Nx. unfold nnz, b_add, SFadd in *. destruct x as [s|s| |s m e], y as [s'|s'| |s' m' e']; try discriminate; try exact Nx.
  - destruct s; [congruence|]. destruct s'; simpl; discriminate.
  - destruct (Bool.eqb s s'); discriminate.
  - simpl in Hx, Hy. cbn zeta. unfold binary_normalize. destruct (_ + _); try discriminate; apply round_nz; lia.
Qed.

Lemma abs_nnz : forall x, nnz (SFabs x). Proof. intros []; discriminate. Qed.

(** a term that is a zero of either sign adds the same *)
Lemma add_zero_term : forall a v s s', nnz a -> b_add a (b_mul v (S754_zero s)) = b_add a (b_mul v (S754_zero s')).
Proof.
  intros a v s s' N. unfold b_mul, SFmul. destruct v as [t|t| |t m e]; auto;
    unfold b_add, SFadd; destruct a as [u|u| |u m' e']; auto; unfold nnz in N; destruct u; try congruence;
    destruct t, s, s'; reflexivity.
Qed.

(** zero or positive, or NaN *)
Definition nneg (x : b32) : Prop :=
  match x with S754_zero s | S754_infinity s | S754_finite s _ _ => s = false | S754_nan => True end.
Lemma nneg_nnz : forall x, nneg x -> nnz x. Proof. intros [[]|[]| |[] m e] H; try discriminate; now simpl in H. Qed.
Lemma abs_nneg : forall x, nneg (SFabs x). Proof. now intros []. Qed.
(** chosen by [if a > m then if a > b then a else b else m] *)
Lemma pick_nneg : forall a m b, nneg a -> nneg m -> SFltb m a = true -> SFltb b a = false -> nneg b.
Proof.
  intros a m b Ha Hm H1 H2.
  destruct b as [[]|[]| |[] mb eb]; simpl; auto; exfalso;
  destruct a as [[]|[]| |[] ma ea]; simpl in Ha; try discriminate; unfold SFltb in *; simpl in *; try discriminate;
  destruct m as [[]|[]| |[] mm em]; simpl in *; try discriminate.
Qed.
