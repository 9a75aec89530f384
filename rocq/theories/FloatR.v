(** The float record at the real numbers: exact arithmetic, no NaN. *)
From Coq Require Import Reals ZArith NArith Bool Lra.
From Verif Require Import Base FloatOps.
Open Scope R_scope.

Definition Reqb (a b : R) : bool := if Req_EM_T a b then true else false.
Definition Rltb (a b : R) : bool := if Rlt_dec a b then true else false.
Definition Rleb (a b : R) : bool := if Rle_dec a b then true else false.
Definition Rsignum (a : R) : R := if Rlt_dec a 0 then -1 else 1.
(** Saturating truncation toward zero. *)
Definition R_to_u32 (a : R) : N :=
  if Rlt_dec a 1 then 0%N
  else if Rlt_dec a 4294967295 then Z.to_N (Int_part a) else 4294967295%N.

(** powf on nonnegative bases.  [Rpower] alone would give 0^x = 1.  powf(0, x) is +inf
    for negative x, which has no real counterpart: statements using [f_pow] at 0 ask for
    a nonnegative exponent. *)
Definition Rpowf (a b : R) : R :=
  if Req_EM_T a 0 then (if Req_EM_T b 0 then 1 else 0) else Rpower a b.

Definition RF : FOps := {|
  F := R;
  f_lit := fun n d => IZR n / IZR (Zpos d);
  f_add := Rplus; f_sub := Rminus; f_mul := Rmult; f_div := Rdiv;
  f_neg := Ropp; f_abs := Rabs; f_sqrt := sqrt;
  f_exp := exp; f_ln := ln; f_pow := Rpowf;
  f_eqb := Reqb; f_ltb := Rltb; f_leb := Rleb;
  f_isnan := fun _ => false; f_isinf := fun _ => false;
  f_signum := Rsignum; f_to_u32 := R_to_u32
|}.
Canonical Structure RF.

Lemma Reqb_spec : forall a b, reflect (a = b) (Reqb a b).
Proof. intros; unfold Reqb; destruct (Req_EM_T a b); constructor; auto. Qed.
Lemma Rltb_spec : forall a b, reflect (a < b) (Rltb a b).
Proof. intros; unfold Rltb; destruct (Rlt_dec a b); constructor; auto. Qed.
Lemma Rleb_spec : forall a b, reflect (a <= b) (Rleb a b).
Proof. intros; unfold Rleb; destruct (Rle_dec a b); constructor; auto. Qed.

Lemma RF_fl : forall z, @fl RF z = IZR z.
Proof. intros; unfold fl; simpl. lra. Qed.
Lemma RF_f0 : @f0 RF = 0.
Proof. unfold f0; rewrite RF_fl; reflexivity. Qed.
Lemma RF_f1 : @f1 RF = 1.
Proof. unfold f1; rewrite RF_fl; reflexivity. Qed.
Lemma RF_of_nat : forall n, @f_of_nat RF n = INR n.
Proof. intros; unfold f_of_nat; rewrite RF_fl. symmetry; apply INR_IZR_INZ. Qed.
Lemma RF_of_N : forall n, @f_of_N RF n = INR (N.to_nat n).
Proof. intros; unfold f_of_N; rewrite RF_fl. rewrite INR_IZR_INZ. now rewrite N_nat_Z. Qed.
Lemma RF_max : forall a b, @f_max RF a b = Rmax a b.
Proof.
  intros. unfold f_max. cbn [f_isnan f_ltb RF]. unfold Rmax.
  destruct (Rltb_spec a b), (Rle_dec a b); auto; lra.
Qed.
Lemma RF_min : forall a b, @f_min RF a b = Rmin a b.
Proof.
  intros. unfold f_min. cbn [f_isnan f_ltb RF]. unfold Rmin.
  destruct (Rltb_spec b a), (Rle_dec a b); auto; lra.
Qed.
